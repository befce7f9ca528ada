(** * Specification: sixteenths of an interval *)
Require Import Arith Reals.
From Flocq Require Import Core BinarySingleNaN.
From Verif Require Import F32 SpecGeom.
Local Open Scope R_scope.

(** The position of [c] between [lo] and [hi] in sixteenths, and the border
    below sixteenth [k] (exact real numbers). *)
Definition sixteenths (lo hi c : R) : R := 16 * (c - lo) / (hi - lo).
Definition exact_border (lo hi : R) (k : nat) : R := lo + INR k * (hi - lo) / 16.
(** A position at least [e] inside sixteenth [k] of 0..15; the first one extends
    to minus infinity and the last one to infinity. *)
Definition well_inside (e pos : R) (k : nat) : Prop :=
  (k <= 15)%nat /\ (k = 0%nat \/ INR k + e <= pos) /\ (k = 15%nat \/ pos < INR k + 1 - e).

(** The interval is neither tiny nor huge. *)
Definition moderate (lo hi : f32) : Prop :=
  is_finite lo = true /\ is_finite hi = true /\ bpow radix2 (-100) <= fval hi - fval lo <= bpow radix2 100.
(** The coordinate is not much larger than the interval. *)
Definition nearby (lo hi c : f32) : Prop :=
  is_finite c = true /\ Rabs (fval c) + Rabs (fval lo) <= bpow radix2 20 * (fval hi - fval lo).
(** Rounding errors for a coordinate: relative to it and to the interval. *)
Definition slack (lo hi c : f32) : R := (Rabs (fval c) + Rabs (fval lo)) / 2097152 + (fval hi - fval lo) * bpow radix2 (-100).

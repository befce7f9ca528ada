(** * IEEE-754 binary32 arithmetic: the [f32] of the Rust code

    Flocq's [BinarySingleNaN] binary32 (24-bit significand, emax 128) with
    round-to-nearest-even, i.e. what Rust guarantees for [+ - * /] on f32
    except that all NaNs are identified. *)
Require Import ZArith Bool.
From Flocq Require Import Core BinarySingleNaN.

Definition f32 := binary_float 24 128.

Definition Hp32 : FLX.Prec_gt_0 24 := eq_refl.
Definition Hm32 : Prec_lt_emax 24 128 := eq_refl.

(** ** Rust operators on f32 *)
Definition fadd (a b : f32) : f32 := @Bplus 24 128 Hp32 Hm32 mode_NE a b.
Definition fsub (a b : f32) : f32 := @Bminus 24 128 Hp32 Hm32 mode_NE a b.
Definition fmul (a b : f32) : f32 := @Bmult 24 128 Hp32 Hm32 mode_NE a b.
Definition fdiv (a b : f32) : f32 := @Bdiv 24 128 Hp32 Hm32 mode_NE a b.
Definition fneg (a : f32) : f32 := Bopp a.

(** Rust [a < b], [a <= b], [a > b], [a >= b], [a == b] (false on NaN). *)
Definition flt (a b : f32) : bool := Bltb a b.
Definition fle (a b : f32) : bool := Bleb a b.
Definition fgt (a b : f32) : bool := Bltb b a.
Definition fge (a b : f32) : bool := Bleb b a.
Definition feq (a b : f32) : bool := Beqb a b.

(** [f32::is_nan]. *)
Definition fnan (a : f32) : bool := is_nan a.

(** [f32::min]/[f32::max]: IEEE minNum/maxNum, a NaN operand is ignored.
    For zeros of opposite sign Rust returns either operand; the model
    returns the first. *)
Definition fmin (a b : f32) : f32 :=
  if fnan a then b else if fnan b then a else if flt b a then b else a.
Definition fmax (a b : f32) : f32 :=
  if fnan a then b else if fnan b then a else if flt a b then b else a.

(** One lane of SSE [minps]/[maxps] (glam's [Vec4::min]/[Vec4::max] on
    x86_64): the second operand unless the comparison is strictly true. *)
Definition smin (a b : f32) : f32 := if flt a b then a else b.
Definition smax (a b : f32) : f32 := if fgt a b then a else b.

(** ** Conversions *)

(** [i as f32] for an integer. *)
Definition f_of_Z (z : Z) : f32 := @binary_normalize 24 128 Hp32 Hm32 mode_NE z 0 false.

(** Truncation towards zero, saturating at the bounds, NaN to 0: [x as i32],
    [x as u32], [x as usize]. *)
Definition f_to_Z_sat (lo hi : Z) (x : f32) : Z :=
  match x with
  | B754_nan => 0
  | B754_infinity s => if s then lo else hi
  | _ => Z.max lo (Z.min hi (Btrunc x))
  end.
Definition f_as_i32 (x : f32) : Z := f_to_Z_sat (-2147483648) 2147483647 x.
Definition f_as_usize (x : f32) : Z := f_to_Z_sat 0 18446744073709551615 x.

(** ** Constants appearing in the source *)
Definition f0 : f32 := B754_zero false.
Definition fm0 : f32 := B754_zero true.
Definition fnan_v : f32 := B754_nan.
Definition f1 : f32 := @B754_finite 24 128 false 8388608 (-23) eq_refl.
Definition f2 : f32 := @B754_finite 24 128 false 8388608 (-22) eq_refl.
Definition fhalf : f32 := @B754_finite 24 128 false 8388608 (-24) eq_refl.
(** 1e34 *)
Definition f1e34 : f32 := @B754_finite 24 128 false 16155871 89 eq_refl.
(** 1e33 *)
Definition f1e33 : f32 := @B754_finite 24 128 false 12924697 86 eq_refl.
(** 1e-4 = 0.0001 *)
Definition f1em4 : f32 := @B754_finite 24 128 false 13743895 (-37) eq_refl.
(** 1e-5 *)
Definition f1em5 : f32 := @B754_finite 24 128 false 10995116 (-40) eq_refl.
(** 1e-6 *)
Definition f1em6 : f32 := @B754_finite 24 128 false 8796093 (-43) eq_refl.
(** f32::MAX *)
Definition fMAX : f32 := @B754_finite 24 128 false 16777215 104 eq_refl.

(** The literals are the correctly rounded decimals. *)
Example f1_val : f1 = f_of_Z 1. Proof. apply B2SF_inj; vm_compute; reflexivity. Qed.
Example f2_val : f2 = f_of_Z 2. Proof. apply B2SF_inj; vm_compute; reflexivity. Qed.
Example fhalf_val : fhalf = fdiv (f_of_Z 1) (f_of_Z 2). Proof. apply B2SF_inj; vm_compute; reflexivity. Qed.
Example f1e34_val : f1e34 = f_of_Z (10 ^ 34). Proof. apply B2SF_inj; vm_compute; reflexivity. Qed.
Example f1em4_val : f1em4 = fdiv (f_of_Z 1) (f_of_Z 10000). Proof. apply B2SF_inj; vm_compute; reflexivity. Qed.
Example f1em5_val : f1em5 = fdiv (f_of_Z 1) (f_of_Z 100000). Proof. apply B2SF_inj; vm_compute; reflexivity. Qed.
Example f1em6_val : f1em6 = fdiv (f_of_Z 1) (f_of_Z 1000000). Proof. apply B2SF_inj; vm_compute; reflexivity. Qed.
Example f1e33_val : f1e33 = f_of_Z (10 ^ 33). Proof. apply B2SF_inj; vm_compute; reflexivity. Qed.

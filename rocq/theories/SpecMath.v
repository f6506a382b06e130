(** Vocabulary for statements about rounding, absolute values and square roots.  Nothing here models code. *)
Require Import String Ascii List ZArith Bool.
Require Import Coq.Floats.SpecFloat.
From Verif Require Import Base Num Value State SpecVal SpecFloats.
Import ListNotations.

(** The double is exactly n / q. *)
Definition fraction (d : f64) (n q : Z) : Prop :=
  match d with
  | S754_zero _ => n = 0%Z /\ q = 1%Z
  | S754_finite s m e => let v := if s then Zneg m else Zpos m in if (0 <=? e)%Z then n = (v * 2 ^ e)%Z /\ q = 1%Z else n = v /\ q = (2 ^ (- e))%Z
  | _ => False
  end.
(** A finite double whose mantissa has at most 53 bits, and all 53 of them if it has no fraction bits. *)
Definition proper (d : f64) : Prop :=
  match d with
  | S754_zero _ => True
  | S754_finite _ m e => (Zpos m < 2 ^ 53)%Z /\ ((0 <= e)%Z -> (2 ^ 52 <= Zpos m)%Z)
  | _ => False
  end.
Definition not_finite (d : f64) : Prop := match d with S754_infinity _ | S754_nan => True | _ => False end.
(** The integers z next to n / q: below, above, nearest (halves away from zero). *)
Definition below (n q z : Z) : Prop := (z * q <= n < (z + 1) * q)%Z.
Definition above (n q z : Z) : Prop := ((z - 1) * q < n <= z * q)%Z.
Definition nearest (n q z : Z) : Prop := (2 * Z.abs (n - z * q) < q \/ 2 * Z.abs (n - z * q) = q /\ Z.abs n < Z.abs z * q)%Z.
(** Towards zero. *)
Definition inward (n q z : Z) : Prop := (Z.abs z * q <= Z.abs n < (Z.abs z + 1) * q /\ 0 <= z * n)%Z.
(** The same double without its sign. *)
Definition unsigned (d e : f64) : Prop :=
  match d, e with
  | S754_zero _, S754_zero s => s = false
  | S754_infinity _, S754_infinity s => s = false
  | S754_finite _ m x, S754_finite s m' x' => s = false /\ m' = m /\ x' = x
  | S754_nan, S754_nan => True
  | _, _ => False
  end.

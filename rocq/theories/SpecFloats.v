(** Vocabulary for statements about floating point numbers.  Nothing here models code. *)
Require Import String Ascii List ZArith Bool Lia.
Require Import Coq.Floats.SpecFloat.
From Verif Require Import Base CppString Num Token Value State Builtins Eval LispTop SpecLex SpecRun SpecVal SpecNum.
Import ListNotations.

(** The double is the IEEE representation of the integer: a mantissa of 53 bits, or zero of either sign. *)
Definition whole (d : f64) (z : Z) : Prop :=
  match d with
  | S754_zero _ => z = 0%Z
  | S754_finite s m e => (2 ^ 52 <= Zpos m < 2 ^ 53)%Z /\
      (let v := if s then Zneg m else Zpos m in if (0 <=? e)%Z then (v * 2 ^ e)%Z = z else v = (z * 2 ^ (- e))%Z)
  | _ => False
  end.
(** Every integer of this size has such a representation. *)
Definition small (z : Z) : Prop := (Z.abs z < 2 ^ 53)%Z.
(** A number, written as an int or as a double without a fraction. *)
Definition is_number (v : variant) (z : Z) : Prop := (is_int v z /\ fits z) \/ (exists d, is_dbl v d /\ whole d z /\ small z).
Definition is_whole (v : variant) (z : Z) : Prop := exists d, is_dbl v d /\ whole d z.
(** The integer next to the double towards zero. *)
Definition toward_zero (d : f64) (z : Z) : Prop :=
  match d with
  | S754_zero _ => z = 0%Z
  | S754_finite s m e =>
      let v := if s then Zneg m else Zpos m in
      if (0 <=? e)%Z then z = (v * 2 ^ e)%Z
      else (Z.abs z * 2 ^ (- e) <= Zpos m < (Z.abs z + 1) * 2 ^ (- e))%Z /\ (0 <= z * v)%Z
  | _ => False
  end.
(** A decimal number without a fraction: an integer text, possibly followed by a point and zeros. *)
Definition decimal_text (w : str) (z : Z) : Prop :=
  exists u k, int_text u z /\ (w = u \/ w = u ++ "."%char :: repeat "0"%char k).
(** What ends a number: nothing, or a character that cannot continue one. *)
Definition ends_number (rest : str) : Prop :=
  match rest with [] => True | c :: _ => is_digit c = false /\ ~ In c ["."; "e"; "E"; "x"; "X"]%char end.
Definition number_args (args : list ptr) (zs : list Z) : Prop :=
  Forall2 (fun p z => exists i v, p = P i (OVar v) /\ is_number v z) args zs.
(** All results of combining the numbers from left to right are small. *)
Fixpoint all_small (f : Z -> Z -> Z) (z : Z) (zs : list Z) : Prop :=
  match zs with
  | [] => True
  | y :: zs' => small (f z y) /\ all_small f (f z y) zs'
  end.
(** One of the two is a double. *)
Definition one_double (v w : variant) : Prop := v_ty v = TDouble \/ v_ty w = TDouble.
Definition gives_whole (name : str) (v w : variant) (z : Z) : Prop :=
  forall i j s st, builtin_pure name [P i (OVar v); P j (OVar w)] s st (fun r => is_whole r z).

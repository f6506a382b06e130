(** Property C59: doubles that are whole numbers. *)
Require Import String Ascii List ZArith Bool Lia.
Require Import Coq.Floats.SpecFloat.
From Verif Require Import Base CppString Num Token Value State Builtins Table Eval LispTop SpecLex SpecRun SpecVal SpecNum SpecFloats
  BuiltinProofs NumProofs FloatProofs RealProofs.
Import ListNotations.
Open Scope Z_scope.

(** ** Arithmetic *)
Theorem C59_many : forall name f i v z args zs s st, operation name f -> is_whole v z -> small z -> number_args args zs -> args <> [] -> all_small f z zs ->
  builtin_pure name (P i (OVar v) :: args) s st (fun r => is_whole r (fold_left f zs z)).
Proof. exact many_whole. Qed.
Print Assumptions C59_many.
Theorem C59_two : forall name f v w a b, operation name f -> is_number v a -> is_number w b -> one_double v w -> small (f a b) -> gives_whole name v w (f a b).
Proof. exact two_whole. Qed.
Print Assumptions C59_two.
Theorem C59_divide : forall v w a b, is_number v a -> is_number w b -> one_double v w -> b <> 0 ->
  (forall c, a = c * b -> gives_whole $"/" v w c) /\ gives_whole $"%" v w (Z.rem a b).
Proof. exact divide_whole. Qed.
Print Assumptions C59_divide.
Theorem C59_negate : forall v z i s st, is_whole v z -> builtin_pure $"-" [P i (OVar v)] s st (fun r => is_whole r (- z)).
Proof. exact negate_whole. Qed.
Print Assumptions C59_negate.
(** ** Comparison *)
Theorem C59_order : forall v w a b, is_number v a -> is_number w b -> one_double v w ->
  decides $"<" v w (a < b) /\ decides $"<=" v w (a <= b) /\ decides $">" v w (b < a) /\ decides $">=" v w (b <= a).
Proof. exact order_numbers. Qed.
Print Assumptions C59_order.
Theorem C59_equal : forall v w a b, is_number v a -> is_number w b -> one_double v w -> small (a - b) ->
  decides $"==" v w (a = b) /\ decides $"!=" v w (a <> b).
Proof. exact equal_numbers. Qed.
Print Assumptions C59_equal.
(** ** Conversion *)
Theorem C59_float_int : forall v z i s st, is_int v z -> fits z -> builtin_pure $"float" [P i (OVar v)] s st (fun r => is_whole r z).
Proof. exact float_of_int. Qed.
Print Assumptions C59_float_int.
Theorem C59_float_float : forall v d i s st, is_dbl v d -> builtin_pure $"float" [P i (OVar v)] s st (fun r => is_dbl r d).
Proof. exact float_of_dbl. Qed.
Print Assumptions C59_float_float.
Theorem C59_float_bool : forall v (b : bool) i s st, is_bool v b -> builtin_pure $"float" [P i (OVar v)] s st (fun r => is_whole r (if b then 1 else 0)).
Proof. exact float_of_bool. Qed.
Print Assumptions C59_float_bool.
Theorem C59_int_double : forall v d z i s st, is_dbl v d -> toward_zero d z -> fits z -> builtin_pure $"int" [P i (OVar v)] s st (fun r => is_int r z).
Proof. exact int_of_dbl. Qed.
Print Assumptions C59_int_double.
Theorem C59_int_overflow : forall v d i s st, is_dbl v d -> (forall z, toward_zero d z -> ~ fits z) -> builtin_call $"int" [P i (OVar v)] s st (Undef UBOverflow) st.
Proof. exact int_of_big. Qed.
Print Assumptions C59_int_overflow.
Theorem C59_int_float_int : forall v z i j s st, is_int v z -> fits z ->
  exists r, builtin_call $"float" [P i (OVar v)] s st (Val (Some r)) st /\ builtin_pure $"int" [P j (OVar r)] s st (fun x => is_int x z).
Proof. exact int_float_int. Qed.
Print Assumptions C59_int_float_int.
(** ** Text *)
Theorem C59_str : forall v z i s st, is_whole v z -> z <> 0 -> small z ->
  exists t, int_text t z /\ builtin_pure $"str" [P i (OVar v)] s st (fun r => is_str r (t ++ $".000000")).
Proof. exact str_of_whole. Qed.
Print Assumptions C59_str.
Theorem C59_parse_float : forall v ws w rest z i s st, is_str v (ws ++ w ++ rest) -> forallb is_space ws = true -> decimal_text w z -> small z -> ends_number rest ->
  builtin_pure $"parse-float" [P i (OVar v)] s st (fun r => is_whole r z) /\ builtin_pure $"float" [P i (OVar v)] s st (fun r => is_whole r z).
Proof. exact parsefloat_text. Qed.
Print Assumptions C59_parse_float.
Theorem C59_text_back : forall v z i j w s st t, is_whole v z -> z <> 0 -> small z -> builtin_pure $"str" [P i (OVar v)] s st (fun r => is_str r t) -> is_str w t ->
  builtin_pure $"parse-float" [P j (OVar w)] s st (fun r => is_whole r z).
Proof. exact whole_text_back. Qed.
Print Assumptions C59_text_back.
(** ** Limits *)
Theorem C59_beyond_53_refuted : exists v w a b r s st, is_whole v a /\ is_whole w b /\ builtin_call $"+" [P 1 (OVar v); P 2 (OVar w)] s st (Val (Some r)) st /\ is_whole r a /\ b = 1.
Proof. exact beyond_53. Qed.
Print Assumptions C59_beyond_53_refuted.
Theorem C59_infinity_refuted : exists v, is_dbl v (S754_infinity false) /\ decides $"==" v v False /\ decides $"<=" v v True.
Proof. exact inf_not_equal. Qed.
Print Assumptions C59_infinity_refuted.
Theorem C59_minus_zero_refuted : forall i s st, exists v, is_whole v 0 /\ builtin_pure $"str" [P i (OVar v)] s st (fun r => is_str r $"-0.000000").
Proof. exact minus_zero. Qed.
Print Assumptions C59_minus_zero_refuted.
(** 3 and 4 as doubles, 2.75, ten to the tenth. *)
Example C59_ex :
  is_whole (vdouble (f_of_z 3)) 3 /\ is_number (vdouble (f_of_z 4)) 4 /\ is_number (vint (-7)) (-7) /\ one_double (vdouble (f_of_z 3)) (vint (-7)) /\
  number_args [P 1 (OVar (vdouble (f_of_z 4))); P 2 (OVar (vint (-7)))] [4; -7] /\ all_small Z.mul 3 [4; -7] /\
  toward_zero (S754_finite true (11 * 2 ^ 49) (-51)) (-2) /\ (forall z, toward_zero (f_of_z (10 ^ 10)) z -> ~ fits z) /\
  decimal_text $"+12.00" 12 /\ ends_number $"px" /\ small 12.
Proof.
  assert (W3 : is_whole (vdouble (f_of_z 3)) 3) by (exists (f_of_z 3); split; [apply vdouble_is|apply of_z_whole; reflexivity]).
  assert (N4 : is_number (vdouble (f_of_z 4)) 4) by (right; exists (f_of_z 4); split; [apply vdouble_is|split; [apply of_z_whole; reflexivity|reflexivity]]).
  assert (N7 : is_number (vint (-7)) (-7)) by (left; split; [apply vint_is|unfold fits; lia]).
  split; [exact W3|]. split; [exact N4|]. split; [exact N7|]. split; [left; reflexivity|].
  split; [repeat constructor; eexists; eexists; (split; [reflexivity|assumption])|]. split; [repeat split|].
  split; [vm_compute; repeat split; congruence|]. split.
  - intros z H F. apply trunc_toward in H. vm_compute in H. injection H as <-. unfold fits in F. lia.
  - split; [exists $"+12", 2%nat; split; [apply (it_plus $"12"); [discriminate|reflexivity]|right; reflexivity]|]. split; [split; [reflexivity|intros H; cbn in H; intuition discriminate]|reflexivity].
Qed.

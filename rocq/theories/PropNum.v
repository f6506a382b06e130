(** Properties C10, C12, C13, C48: arithmetic, equality, order, bits. *)
Require Import String Ascii List ZArith Bool Lia.
Require Import PArith FMapPositive.
From Verif Require Import Base CppString Num Token Value State Builtins Eval LispTop SpecRun SpecVal SpecNum NumProofs.
Import ListNotations.

(** ** C10: arithmetic *)
Theorem C10_exact : forall name f args z zs s st, operation name f -> int_args args (z :: zs) -> zs <> [] -> all_fit f z zs ->
  builtin_pure name args s st (fun r => is_int r (fold_left f zs z)).
Proof. exact operation_exact. Qed.
Print Assumptions C10_exact.
Theorem C10_overflow_undefined : forall name f args z zs s st, operation name f -> int_args args (z :: zs) -> ~ all_fit f z zs ->
  builtin_call name args s st (Undef UBOverflow) st.
Proof. exact operation_overflow. Qed.
Print Assumptions C10_overflow_undefined.
Example C10_exact_ex : operation $"-" Z.sub /\
  int_args [P 1 (OVar (vint 2147483647)); P 2 (OVar (vint (-1))); P 3 (OVar (vint 5))] [2147483647; -1; 5]%Z /\
  ~ all_fit Z.sub 2147483647 [-1; 5]%Z /\ all_fit Z.sub 2147483647 [1; 5]%Z.
Proof.
  split; [right; left; auto|]. split; [repeat constructor; eexists; eexists; (split; [reflexivity|split; reflexivity])|].
  unfold all_fit, fits. split; [intros [H _]; lia|lia].
Qed.
Theorem C10_negate : forall v z i s st, is_int v z -> fits (- z) -> builtin_pure $"-" [P i (OVar v)] s st (fun r => is_int r (- z)).
Proof. exact negate_exact. Qed.
Print Assumptions C10_negate.
Theorem C10_negate_undefined : forall v z i s st, is_int v z -> ~ fits (- z) -> builtin_call $"-" [P i (OVar v)] s st (Undef UBOverflow) st.
Proof. exact negate_overflow. Qed.
Print Assumptions C10_negate_undefined.
Theorem C10_one_operand : forall name v z i s st, (name = $"+" \/ name = $"*") -> is_int v z ->
  builtin_pure name [P i (OVar v)] s st (fun r => is_int r z).
Proof. exact single_operand. Qed.
Print Assumptions C10_one_operand.
Example C10_negate_ex : is_int (vint (-2147483648)) (-2147483648) /\ ~ fits (- -2147483648) /\ fits (- 5).
Proof. split; [split; reflexivity|]. unfold fits. lia. Qed.
Theorem C10_division : forall v w a b q r, is_int v a -> is_int w b -> b <> 0%Z -> fits a -> ~ (a = -2147483648 /\ b = -1)%Z ->
  divides_to a b q r -> gives $"/" v w q /\ gives $"%" v w r /\ fits q /\ fits r.
Proof. exact div_ok. Qed.
Print Assumptions C10_division.
Theorem C10_division_determined : forall a b q r q' r', b <> 0%Z -> divides_to a b q r -> divides_to a b q' r' -> q = q' /\ r = r'.
Proof. exact divides_unique. Qed.
Print Assumptions C10_division_determined.
Theorem C10_division_undefined : forall v w a b, is_int v a -> is_int w b -> (b = 0 \/ (a = -2147483648 /\ b = -1))%Z ->
  gives_undef $"/" v w UBDivZero /\ gives_undef $"%" v w UBDivZero.
Proof. exact div_undefined. Qed.
Print Assumptions C10_division_undefined.
Example C10_division_ex : divides_to (-7) 2 (-3) (-1) /\ divides_to 7 (-2) (-3) 1.
Proof. unfold divides_to. lia. Qed.

(** ** C12: equality *)
Theorem C12_integers : forall v w a b, is_int v a -> is_int w b -> decides $"==" v w (a = b) /\ decides $"!=" v w (a <> b).
Proof. exact equal_ints. Qed.
Print Assumptions C12_integers.
Theorem C12_booleans : forall v w a b, is_bool v a -> is_bool w b -> decides $"==" v w (a = b) /\ decides $"!=" v w (a <> b).
Proof. exact equal_bools. Qed.
Print Assumptions C12_booleans.
Theorem C12_strings : forall v w a b, is_str v a -> is_str w b -> decides $"==" v w (a = b) /\ decides $"!=" v w (a <> b).
Proof. exact equal_strs. Qed.
Print Assumptions C12_strings.
Theorem C12_symbols : forall v w a b, is_sym v a -> is_sym w b -> decides $"==" v w (a = b) /\ decides $"!=" v w (a <> b).
Proof. exact equal_syms. Qed.
Print Assumptions C12_symbols.
Theorem C12_integer_lists : forall st v w l m ps qs xs ys i j s,
  is_list_at st v l ps -> is_list_at st w m qs -> int_args ps xs -> int_args qs ys ->
  exists b, (b = true <-> xs = ys) /\ builtin_pure $"==" [P i (OVar v); P j (OVar w)] s st (fun r => is_bool r b).
Proof. exact equal_int_lists. Qed.
Print Assumptions C12_integer_lists.
Example C12_ex : is_str (vstr $"a") $"a" /\ is_int (vint 3) 3 /\ is_bool (vbool true) true /\
  is_sym (mkv TSym (OString $"x")) $"x" /\ int_args [P 3 (OVar (vint 7))] [7%Z].
Proof. repeat split; try reflexivity. repeat constructor. eexists. eexists. split; [reflexivity|split; reflexivity]. Qed.
(** Over mixed kinds and over doubles equality is not transitive. *)
Theorem C12_mixed_transitive_refuted :
  decides $"==" (vstr $"1") (vint 1) True /\ decides $"==" (vint 1) (vbool true) True /\ decides $"==" (vstr $"1") (vbool true) False.
Proof. exact equality_mixed. Qed.
Print Assumptions C12_mixed_transitive_refuted.
Theorem C12_double_transitive_refuted :
  decides $"==" zero_dbl (nano 6) True /\ decides $"==" (nano 6) (nano 12) True /\ decides $"==" zero_dbl (nano 12) False.
Proof. exact equality_tolerance. Qed.
Print Assumptions C12_double_transitive_refuted.
(** Two lists holding equal lists are reported as different. *)
Theorem C12_nested_lists_refuted : exists st v1 st1 v2 st2,
  builtin_call $"==" [P 1 (OVar (mkv TList (OList 2%positive))); P 2 (OVar (mkv TList (OList 4%positive)))] main_sid st (Val (Some v1)) st1 /\ is_bool v1 false /\
  builtin_call $"==" [P 1 (OVar (mkv TList (OList 1%positive))); P 2 (OVar (mkv TList (OList 3%positive)))] main_sid st (Val (Some v2)) st2 /\ is_bool v2 true /\
  vec_at st 1%positive = Some [P 1 (OVar (vint 7))] /\ vec_at st 2%positive = Some [P 2 (OVar (mkv TList (OList 1%positive)))] /\
  vec_at st 3%positive = Some [P 3 (OVar (vint 7))] /\ vec_at st 4%positive = Some [P 4 (OVar (mkv TList (OList 3%positive)))].
Proof. exact equality_nested. Qed.
Print Assumptions C12_nested_lists_refuted.

(** ** C13: order *)
Theorem C13_integers : forall v w a b, is_int v a -> is_int w b ->
  decides $"<" v w (a < b)%Z /\ decides $"<=" v w (a <= b)%Z /\ decides $">" v w (b < a)%Z /\ decides $">=" v w (b <= a)%Z.
Proof. exact order_ints. Qed.
Print Assumptions C13_integers.
Theorem C13_strings : forall v w a b, is_str v a -> is_str w b -> ~ In c_nul a -> ~ In c_nul b ->
  decides $"<" v w (lex_lt a b) /\ decides $"<=" v w (lex_lt a b \/ a = b) /\
  decides $">" v w (lex_lt b a) /\ decides $">=" v w (lex_lt b a \/ a = b).
Proof. exact order_strs. Qed.
Print Assumptions C13_strings.
Theorem C13_order_irreflexive : forall a, ~ lex_lt a a.
Proof. exact lex_irrefl. Qed.
Print Assumptions C13_order_irreflexive.
Theorem C13_order_transitive : forall a b c, lex_lt a b -> lex_lt b c -> lex_lt a c.
Proof. exact lex_trans. Qed.
Print Assumptions C13_order_transitive.
Theorem C13_order_total : forall a b, lex_lt a b \/ a = b \/ lex_lt b a.
Proof. exact lex_total. Qed.
Print Assumptions C13_order_total.
Example C13_ex : lex_lt $"ab" $"abc" /\ lex_lt $"abz" $"ac" /\ ~ In c_nul $"abz".
Proof.
  split; [do 2 apply lx_later; apply lx_end|]. split; [|cbn; intuition discriminate].
  apply lx_later, lx_here. vm_compute. lia.
Qed.

(** ** C48: bits *)
Theorem C48_bitwise : forall v w a b, is_int v a -> is_int w b -> fits a -> fits b ->
  (exists z, gives $"|" v w z /\ fits z /\ forall n, Z.testbit z n = (Z.testbit a n || Z.testbit b n)%bool) /\
  (exists z, gives $"&" v w z /\ fits z /\ forall n, Z.testbit z n = (Z.testbit a n && Z.testbit b n)%bool) /\
  (exists z, gives $"^" v w z /\ fits z /\ forall n, Z.testbit z n = xorb (Z.testbit a n) (Z.testbit b n)).
Proof. exact bit_ops. Qed.
Print Assumptions C48_bitwise.
Theorem C48_not : forall v a i s st, is_int v a -> fits a ->
  builtin_pure $"~" [P i (OVar v)] s st (fun r => is_int r (- a - 1)) /\ fits (- a - 1).
Proof. exact bit_not. Qed.
Print Assumptions C48_not.
Theorem C48_shift_left : forall v w a k, is_int v a -> is_int w k -> (0 <= k <= 31)%Z -> (0 <= a)%Z -> fits (a * 2 ^ k) ->
  gives $"<<" v w (a * 2 ^ k).
Proof. exact shift_left. Qed.
Print Assumptions C48_shift_left.
Theorem C48_shift_left_undefined : forall v w a k, is_int v a -> is_int w k ->
  ~ ((0 <= k <= 31)%Z /\ (0 <= a)%Z /\ fits (a * 2 ^ k)) -> gives_undef $"<<" v w UBOverflow.
Proof. exact shift_left_undef. Qed.
Print Assumptions C48_shift_left_undefined.
Theorem C48_shift_right : forall v w a k, is_int v a -> is_int w k -> (0 <= k <= 31)%Z -> fits a ->
  gives $">>" v w (a / 2 ^ k)%Z /\ fits (a / 2 ^ k).
Proof. exact shift_right. Qed.
Print Assumptions C48_shift_right.
Theorem C48_shift_right_undefined : forall v w a k, is_int v a -> is_int w k -> ~ (0 <= k <= 31)%Z -> gives_undef $">>" v w UBOverflow.
Proof. exact shift_right_undef. Qed.
Print Assumptions C48_shift_right_undefined.
Example C48_ex : is_int (vint (-6)) (-6) /\ fits (-6) /\ (-6 / 2 ^ 1 = -3)%Z /\ fits (3 * 2 ^ 29) /\ ~ fits (3 * 2 ^ 30).
Proof. split; [split; reflexivity|]. unfold fits. cbn. lia. Qed.

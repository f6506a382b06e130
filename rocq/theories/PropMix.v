(** Properties C62 (operands of mixed kinds), C63 (equality across kinds), C64 (other names), C65 (numbers of arguments), C66 (the arguments of a
    call), C67 (search in a list), C68 (small functions), C69 (removing a variable) and C70 (rounding, absolute values, square roots). *)
Require Import String Ascii List ZArith Bool Lia.
Require Import PArith FMapPositive.
Require Import Coq.Floats.SpecFloat.
From Verif Require Import Base CppString Num Token Value State Show ScopeOps Builtins Table Eval LispTop SpecLex SpecRun SpecVal SpecNum SpecList SpecForm SpecText SpecIo SpecFloats SpecMix SpecMath.
From Verif Require Import RunProofs BuiltinProofs ListProofs FormProofs IoProofs FloatProofs MixProofs SmallProofs MathProofs.
Import ListNotations.

(** ** C62: operands of mixed kinds *)
Theorem C62_text : forall ps zs i w t args ts s st, int_args ps zs -> front_fits zs -> is_str w t -> text_args args ts ->
  builtin_pure $"+" (ps ++ P i (OVar w) :: args) s st (fun r => is_str r (front_text zs ++ t ++ concat ts)).
Proof. exact join_ok. Qed.
Print Assumptions C62_text.
Theorem C62_lists : forall p q ps es ds ess s st, heap_numbered st -> list_arg st p es -> list_arg st q ds -> Forall2 (list_arg st) ps ess ->
  builtin_list $"+" (p :: q :: ps) s st (es ++ ds ++ concat ess).
Proof. exact add_lists_ok. Qed.
Print Assumptions C62_lists.
Theorem C62_arithmetic : forall name f v w a b, mixed_operation name f -> as_int v a -> as_int w b -> one_int v w ->
  (fits (f a b) -> gives name v w (f a b)) /\ (~ fits (f a b) -> gives_undef name v w UBOverflow).
Proof. exact mixed_exact. Qed.
Print Assumptions C62_arithmetic.
Theorem C62_division : forall v w a b q r, as_int v a -> as_int w b -> one_int v w -> b <> 0 -> ~ (a = -2147483648 /\ b = -1) -> divides_to a b q r ->
  gives $"/" v w q /\ gives $"%" v w r.
Proof. exact mixed_div. Qed.
Print Assumptions C62_division.
Theorem C62_division_undefined : forall v w a b, as_int v a -> as_int w b -> one_int v w -> b = 0 \/ (a = -2147483648 /\ b = -1) ->
  gives_undef $"/" v w UBDivZero /\ gives_undef $"%" v w UBDivZero.
Proof. exact mixed_div_undefined. Qed.
Print Assumptions C62_division_undefined.
Theorem C62_sum : forall v w z (b : bool), is_int v z -> is_bool w b ->
  let r := z + (if b then 1 else 0) in
  (fits r -> gives $"+" v w r /\ gives $"+" w v r) /\ (~ fits r -> gives_undef $"+" v w UBOverflow /\ gives_undef $"+" w v UBOverflow).
Proof. exact sum_bool. Qed.
Print Assumptions C62_sum.
Theorem C62_order : forall v w a b, as_int v a -> as_int w b -> one_int v w ->
  decides $"<" v w (a < b)%Z /\ decides $"<=" v w (a <= b)%Z /\ decides $">" v w (b < a)%Z /\ decides $">=" v w (b <= a)%Z.
Proof. exact mixed_order. Qed.
Print Assumptions C62_order.
Theorem C62_refused : forall name v w i j s st, In name [$"-"; $"*"; $"/"; $"%"] -> no_number v -> no_number w ->
  builtin_call name [P i (OVar v); P j (OVar w)] s st (Throw (error_at v (refusal name v w))) st.
Proof. exact refused_arith. Qed.
Print Assumptions C62_refused.
Theorem C62_refused_sum : forall v w i j s st, no_number v -> no_number w -> v_ty v <> TString -> v_ty w <> TString -> ~ (list_kind v /\ list_kind w) ->
  builtin_call $"+" [P i (OVar v); P j (OVar w)] s st (Throw (error_at v (refusal $"+" v w))) st.
Proof. exact refused_add. Qed.
Print Assumptions C62_refused_sum.
Theorem C62_refused_order : forall v w i j s st, no_number v -> no_number w -> v_ty v <> TString -> v_ty w <> TString ->
  builtin_call $"<" [P i (OVar v); P j (OVar w)] s st (Throw (error_at v (refusal $"< or >" v w))) st /\
  builtin_call $"<=" [P i (OVar v); P j (OVar w)] s st (Throw (error_at v (refusal $"<= or >=" v w))) st /\
  builtin_call $">" [P i (OVar v); P j (OVar w)] s st (Throw (error_at w (refusal $"< or >" w v))) st /\
  builtin_call $">=" [P i (OVar v); P j (OVar w)] s st (Throw (error_at w (refusal $"<= or >=" w v))) st.
Proof. exact refused_order. Qed.
Print Assumptions C62_refused_order.
Example C62_text_ex : int_args [P 1 (OVar (vint 1)); P 2 (OVar (vint 2))] [1; 2]%Z /\ front_fits [1; 2]%Z /\ is_str (vstr $"a") $"a" /\ front_text [1; 2]%Z = $"3" /\
  text_args [P 3 (OVar (vint 4)); P 4 (OVar (vbool true))] [$"4"; $"true"].
Proof.
  split; [repeat (apply Forall2_cons; [eexists; eexists; split; [reflexivity|apply vint_is]|]); apply Forall2_nil|]. split; [cbn; unfold fits; lia|].
  split; [apply vstr_is|]. split; [reflexivity|].
  apply Forall2_cons; [eexists; eexists; split; [reflexivity|apply (at_int _ 4), vint_is]|]. apply Forall2_cons; [eexists; eexists; split; [reflexivity|apply (at_bool _ true), vbool_is]|]. apply Forall2_nil.
Qed.
Example C62_number_ex : as_int (vstr $" 12abc") 12 /\ as_int (vint 5) 5 /\ one_int (vstr $" 12abc") (vint 5) /\ mixed_operation $"*" Z.mul /\ fits (12 * 5) /\ divides_to 12 5 2 2.
Proof.
  assert (F : fits 12) by (unfold fits; lia).
  split; [eapply ai_text; [apply vstr_is| |exact F]|]; [apply (li_some $" " $"12" $"abc" 12); [reflexivity|apply (it_pos $"12"); [discriminate|reflexivity]|reflexivity]|].
  split; [apply ai_int, vint_is|]. split; [right; eexists; apply vint_is|]. split; [right; split; reflexivity|]. split; [unfold fits; lia|]. unfold divides_to. lia.
Qed.
Example C62_refused_ex : no_number (vstr $"a") /\ no_number (vbool true) /\ refusal $"-" (vstr $"a") (vbool true) = $"no - operator for types " ++ ["005"%char] ++ $" and " ++ ["002"%char] /\
  heap_numbered sample /\ list_arg sample (P 1 (OVar sample_list)) [P 1 (OVar (vint 7)); P 2 (OVar (vint 8)); P 3 (OVar (vint 9))] /\ list_arg sample (P 2 (OVar vnil)) [].
Proof.
  split; [split; discriminate|]. split; [split; discriminate|]. split; [reflexivity|]. split; [exact sample_numbered|].
  split; [eexists; eexists; split; [reflexivity|left; eexists; split; [reflexivity|split; [reflexivity|vm_compute; reflexivity]]]|]. eexists; eexists; split; [reflexivity|right; split; reflexivity].
Qed.

(** ** C63: equality across kinds *)
Theorem C63_symbol : forall v w, v_ty v = TSym -> v_ty w <> TSym ->
  (decides $"==" v w False /\ decides $"!=" v w True) /\ (decides $"==" w v False /\ decides $"!=" w v True).
Proof. exact equal_symbol. Qed.
Print Assumptions C63_symbol.
Theorem C63_nil : forall v w, v_ty v = TNil -> v_ty w <> TSym ->
  (decides $"==" v w (v_ty w = TNil) /\ decides $"!=" v w (v_ty w <> TNil)) /\
  (decides $"==" w v (v_ty w = TNil) /\ decides $"!=" w v (v_ty w <> TNil)).
Proof. exact equal_nil. Qed.
Print Assumptions C63_nil.
Theorem C63_undefined : forall v w, v_ty v = TUndef -> v_ty w <> TSym ->
  (decides $"==" v w (v_ty w = TUndef) /\ decides $"!=" v w (v_ty w <> TUndef)) /\
  (decides $"==" w v (v_ty w = TUndef) /\ decides $"!=" w v (v_ty w <> TUndef)).
Proof. exact equal_undefined. Qed.
Print Assumptions C63_undefined.
Theorem C63_int_bool : forall v w z (b : bool), is_int v z -> is_bool w b ->
  (decides $"==" v w (z = if b then 1 else 0) /\ decides $"!=" v w (z <> if b then 1 else 0)) /\
  (decides $"==" w v (z = if b then 1 else 0) /\ decides $"!=" w v (z <> if b then 1 else 0)).
Proof. exact equal_int_bool. Qed.
Print Assumptions C63_int_bool.
Theorem C63_text : forall v w a b i j s st, is_str v a -> v_ty w <> TSym -> v_ty w <> TNil -> v_ty w <> TUndef -> shows s st (P j (OVar w)) b ->
  exists e : bool, (e = true <-> a = b) /\
   builtin_pure $"==" [P i (OVar v); P j (OVar w)] s st (fun r => is_bool r e) /\ builtin_pure $"==" [P j (OVar w); P i (OVar v)] s st (fun r => is_bool r e) /\
   builtin_pure $"!=" [P i (OVar v); P j (OVar w)] s st (fun r => is_bool r (negb e)) /\ builtin_pure $"!=" [P j (OVar w); P i (OVar v)] s st (fun r => is_bool r (negb e)).
Proof. exact equal_text. Qed.
Print Assumptions C63_text.
Theorem C63_refused : forall v w i j s st, plain_kind v -> plain_kind w -> ~ (v_ty v = TNative /\ v_ty w = TNative) -> ~ (v_ty v = TBool /\ v_ty w = TBool) -> ~ (v_ty v = TList /\ v_ty w = TList) ->
  builtin_call $"==" [P i (OVar v); P j (OVar w)] s st (Throw (error_at v (refusal $"==" v w))) st.
Proof. exact equal_refused. Qed.
Print Assumptions C63_refused.
Theorem C63_transitive_refuted : exists u v w, forall i j s st,
  builtin_pure $"==" [P i (OVar u); P j (OVar v)] s st (fun r => is_bool r true) /\ builtin_pure $"==" [P i (OVar v); P j (OVar w)] s st (fun r => is_bool r true) /\
  builtin_pure $"==" [P i (OVar u); P j (OVar w)] s st (fun r => is_bool r false).
Proof. exact not_transitive. Qed.
Print Assumptions C63_transitive_refuted.
Example C63_ex : v_ty (mkv TSym (OString $"a")) = TSym /\ v_ty (vstr $"a") <> TSym /\ shows main_sid fresh (P 1 (OVar (vint 7))) $"7" /\ plain_kind (vbool true) /\ plain_kind sample_list.
Proof. split; [reflexivity|]. split; [discriminate|]. split; [apply says; [discriminate|reflexivity]|]. split; [left; reflexivity|right; left; reflexivity]. Qed.

(** ** C64: other names *)
Theorem C64_same : forall a b, In (a, b) aliases -> forall args s st o st', builtin_call a args s st o st' <-> builtin_call b args s st o st'.
Proof. exact alias_same. Qed.
Print Assumptions C64_same.
Example C64_ex : In ($"lambda", $"fn") aliases /\ builtin_call $"add" [P 1 (OVar (vint 2)); P 2 (OVar (vint 3))] main_sid fresh (Val (Some (vint 5))) fresh.
Proof. split; [cbn; tauto|]. apply (builtin_calls 0 _ BAdd); [vm_compute; reflexivity|reflexivity|discriminate]. Qed.

(** ** C65: numbers of arguments *)
Theorem C65_fixed : forall name shown n args s st, In (name, (shown, n)) fixed_arity -> length args <> n -> printable st s ->
  exists i, builtin_call name args s st (Throw (ELisp (miscounted shown (length args) (count_text n)) i)) st.
Proof. exact arity_ok. Qed.
Print Assumptions C65_fixed.
Theorem C65_range : forall name a b args s st, In (name, (a, b)) ranged_arity -> (length args < a \/ b < length args)%nat -> printable st s ->
  exists i, builtin_call name args s st (Throw (ELisp (miscounted name (length args) ($"between " ++ count_text a ++ $" and " ++ count_text b)) i)) st.
Proof. exact range_arity. Qed.
Print Assumptions C65_range.
Theorem C65_if : forall args s st, length args <> 2%nat -> length args <> 3%nat -> printable st s ->
  exists i, builtin_call $"if" args s st (Throw (ELisp (miscounted $"if" (length args) $"18446744073709551615") i)) st.
Proof. exact if_arity. Qed.
Print Assumptions C65_if.
Theorem C65_unchecked_refuted : forall name s st sc, In name [$"return"; $"trace"; $"sleep"] -> scope_at st s = Some sc -> exists st', builtin_call name [] s st (Undef UBIndex) st'.
Proof. exact unchecked. Qed.
Print Assumptions C65_unchecked_refuted.
Example C65_ex : In ($"dict-clear", ($"dict-clean", 1%nat)) fixed_arity /\ length (@nil ptr) <> 1%nat /\ printable fresh main_sid /\
  miscounted $"dict-clean" 0 (count_text 1) = $"Bad argument count in dict-clean, has 0 expected 1" /\ In ($"search", (2, 4)%nat) ranged_arity.
Proof.
  split; [cbn; tauto|]. split; [discriminate|]. split; [|split; [reflexivity|cbn; tauto]].
  destruct (main_scope fresh) as (PR & _); [vm_compute; repeat split; try discriminate; intuition discriminate|exact PR].
Qed.

(** ** C66: the arguments of a call *)
Theorem C66_call : forall st st1 s c ds name names args, starts_call st st1 s c ds name names args ->
  exists fill, in_call st1 c (args ++ fill) /\ length fill = (length names - length args)%nat /\ Forall (fun p => exists i, p = P i (OVar vnil)) fill.
Proof. exact call_args. Qed.
Print Assumptions C66_call.
Theorem C66_count : forall st st1 s c ds name names args, starts_call st st1 s c ds name names args -> (Z.of_nat (Nat.max (length names) (length args)) <= 2147483647)%Z ->
  builtin_pure $"argscount" [] c st1 (fun r => is_int r (Z.of_nat (Nat.max (length names) (length args)))).
Proof. exact call_count. Qed.
Print Assumptions C66_count.
Theorem C66_argscount : forall st c es, in_call st c es -> (Z.of_nat (length es) <= 2147483647)%Z -> builtin_pure $"argscount" [] c st (fun r => is_int r (Z.of_nat (length es))).
Proof. exact argscount_ok. Qed.
Print Assumptions C66_argscount.
Theorem C66_args : forall st c es, heap_numbered st -> in_call st c es -> builtin_list $"args" [] c st es.
Proof. exact args_ok. Qed.
Print Assumptions C66_args.
Theorem C66_arg : forall st c es v k e w i, in_call st c es -> is_int v (Z.of_nat k) -> nth_error es k = Some e -> element e w -> builtin_pure $"arg" [P i (OVar v)] c st (fun r => r = w).
Proof. exact arg_ok. Qed.
Print Assumptions C66_arg.
Theorem C66_arg_out : forall st c es v z i, in_call st c es -> is_int v z -> (z < 0 \/ Z.of_nat (length es) <= z)%Z ->
  builtin_call $"arg" [P i (OVar v)] c st (Throw (ELispBase ($"Index out of range in args function (index=" ++ z_to_string z ++ $" max=" ++ count_text (length es) ++ $")"))) st.
Proof. exact arg_out. Qed.
Print Assumptions C66_arg_out.
Theorem C66_outside_refuted : forall s st, scope_exists st s -> var_at st s $"###args###" = None -> exists st', builtin_call $"argscount" [] s st (Undef UBNullDeref) st'.
Proof. exact no_call. Qed.
Print Assumptions C66_outside_refuted.
Definition called : state := with_scopes (PositiveMap.add 9%positive (Scope [($"###args###", P 1 (OList 1%positive))] $"f" [] main_sid None (Some main_sid) None false false false false None None None []) (st_scopes sample)) sample.
Example C66_ex : in_call called 9%positive [P 1 (OVar (vint 7)); P 2 (OVar (vint 8)); P 3 (OVar (vint 9))] /\ heap_numbered called /\
  is_int (vint 2) (Z.of_nat 2) /\ element (P 3 (OVar (vint 9))) (vint 9) /\ scope_exists fresh main_sid /\ var_at fresh main_sid $"###args###" = None.
Proof.
  split; [eexists; eexists; split; vm_compute; reflexivity|]. split; [exact sample_numbered|]. split; [apply vint_is|]. split; [constructor|]. split; [apply main_here; vm_compute; exact Logic.I|vm_compute; reflexivity].
Qed.

(** ** C67: search in a list *)
Theorem C67_list : forall p t q es ts s st, shows s st p t -> list_arg st q es -> Forall2 (shows s st) es ts -> (Z.of_nat (length es) <= 2147483647)%Z ->
  builtin_pure $"search" [p; q] s st (fun r => exists z, is_int r z /\ first_place t ts z).
Proof. exact search_in_list. Qed.
Print Assumptions C67_list.
Example C67_ex : shows main_sid sample (P 4 (OVar (vstr $"8"))) $"8" /\ list_arg sample (P 5 (OVar sample_list)) [P 1 (OVar (vint 7)); P 2 (OVar (vint 8)); P 3 (OVar (vint 9))] /\
  Forall2 (shows main_sid sample) [P 1 (OVar (vint 7)); P 2 (OVar (vint 8)); P 3 (OVar (vint 9))] [$"7"; $"8"; $"9"] /\ first_place $"8" [$"7"; $"8"; $"9"] 1.
Proof.
  split; [apply says; [discriminate|reflexivity]|]. split; [eexists; eexists; split; [reflexivity|left; eexists; split; [reflexivity|split; [reflexivity|vm_compute; reflexivity]]]|].
  split; [repeat constructor; apply says; try discriminate; reflexivity|]. right. exists 1%nat. split; [reflexivity|]. split; [reflexivity|]. cbn. intuition discriminate.
Qed.

(** ** C68: small functions *)
Theorem C68_not : forall v b i s st, is_bool v b -> builtin_pure $"not" [P i (OVar v)] s st (fun r => is_bool r (negb b)).
Proof. exact not_ok. Qed.
Print Assumptions C68_not.
Theorem C68_type : forall v i s st, builtin_pure $"type" [P i (OVar v)] s st (fun r => is_int r (kind_number v)).
Proof. exact type_ok. Qed.
Print Assumptions C68_type.
Theorem C68_typestr : forall v t i s st, kind_name v t -> builtin_pure $"typestr" [P i (OVar v)] s st (fun r => is_str r t).
Proof. exact typestr_ok. Qed.
Print Assumptions C68_typestr.
Theorem C68_sym : forall p t s st, shows s st p t -> builtin_pure $"sym" [p] s st (fun r => r = mkv TSym (OString t)).
Proof. exact sym_ok. Qed.
Print Assumptions C68_sym.
Theorem C68_upper : forall v t i s st, shows s st (P i (OVar v)) t -> seven_bit t ->
  builtin_pure $"upper-case" [P i (OVar v)] s st (fun r => exists u, is_str r u /\ Forall2 upper_of t u).
Proof. exact upper_ok. Qed.
Print Assumptions C68_upper.
Theorem C68_lower : forall v t i s st, shows s st (P i (OVar v)) t -> seven_bit t ->
  builtin_pure $"lower-case" [P i (OVar v)] s st (fun r => exists u, is_str r u /\ Forall2 lower_of t u).
Proof. exact lower_ok. Qed.
Print Assumptions C68_lower.
Theorem C68_case_undefined : forall name v t i s st, In name [$"upper-case"; $"lower-case"] -> shows s st (P i (OVar v)) t -> ~ seven_bit t ->
  builtin_call name [P i (OVar v)] s st (Undef UBCtype) st.
Proof. exact case_undefined. Qed.
Print Assumptions C68_case_undefined.
Theorem C68_nop : forall args s st, builtin_pure $"nop" args s st (fun r => v_ty r = TUndef).
Proof. exact nop_ok. Qed.
Print Assumptions C68_nop.
Theorem C68_flush : forall s st, builtin_pure $"flush" [] s st (fun r => v_ty r = TUndef).
Proof. exact flush_ok. Qed.
Print Assumptions C68_flush.
Theorem C68_version : forall args s st, builtin_pure $"version" args s st (fun r => is_str r $"v0.99.6").
Proof. exact version_ok. Qed.
Print Assumptions C68_version.
Theorem C68_fuel : forall args s st, builtin_pure $"fuel" args s st (fun r => is_str r $"fuel version v0.99.6 from 16.12.2023").
Proof. exact fuel_ok. Qed.
Print Assumptions C68_fuel.
Theorem C68_copyright : forall args s st, builtin_pure $"copyright" args s st (fun r => is_str r $"Copyright: MIT-License http://opensource.org/licenses/MIT").
Proof. exact copyright_ok. Qed.
Print Assumptions C68_copyright.
Example C68_ex : kind_name (vint 5) $"Int" /\ kind_number (vint 5) = 3%Z /\ shows main_sid fresh (P 1 (OVar (vstr $"aZ9"))) $"aZ9" /\ seven_bit $"aZ9" /\ Forall2 upper_of $"aZ9" $"AZ9" /\ Forall2 lower_of $"aZ9" $"az9" /\
  ~ seven_bit ["200"%char].
Proof.
  split; [reflexivity|]. split; [reflexivity|]. split; [apply says; [discriminate|reflexivity]|]. split; [repeat constructor|].
  split; [repeat constructor|]. split; [repeat constructor|]. intro H. inversion H as [|a b K _]. revert K. apply Nat.lt_asymm. vm_compute. repeat constructor.
Qed.

(** ** C69: removing a variable *)
Theorem C69_delvar : forall st s i v name, reachable st -> scope_exists st s -> shows s st (P i (OVar v)) name ->
  exists r st', builtin_call $"delvar" [P i (OVar v)] s st (Val (Some r)) st' /\ var_gone st st' s name /\
   (is_bool r true /\ var_at st s name <> None \/ is_bool r false /\ var_at st s name = None).
Proof. exact delvar_ok. Qed.
Print Assumptions C69_delvar.
Example C69_ex : let st := snd (eval_script 40 false false $"(def x 1)" [] fresh) in reachable st /\ scope_exists st main_sid /\ var_at st main_sid $"x" <> None /\ shows main_sid st (P 1 (OVar (vstr $"x"))) $"x".
Proof.
  intro st. split; [apply reach_eval, reach_init|]. split; [apply main_here; vm_compute; exact Logic.I|]. split; [vm_compute; discriminate|]. apply says_text.
Qed.

(** ** C70: rounding, absolute values, square roots *)
Theorem C70_floor : forall v d n q i s st, is_dbl v d -> proper d -> fraction d n q ->
  builtin_pure $"Math-Floor" [P i (OVar v)] s st (fun r => exists z, is_whole r z /\ below n q z).
Proof. exact floor_ok. Qed.
Print Assumptions C70_floor.
Theorem C70_ceiling : forall v d n q i s st, is_dbl v d -> proper d -> fraction d n q ->
  builtin_pure $"Math-Ceiling" [P i (OVar v)] s st (fun r => exists z, is_whole r z /\ above n q z).
Proof. exact ceil_ok. Qed.
Print Assumptions C70_ceiling.
Theorem C70_round : forall v d n q i s st, is_dbl v d -> proper d -> fraction d n q ->
  builtin_pure $"Math-Round" [P i (OVar v)] s st (fun r => exists z, is_whole r z /\ nearest n q z).
Proof. exact round_ok. Qed.
Print Assumptions C70_round.
Theorem C70_truncate : forall v d n q i s st, is_dbl v d -> proper d -> fraction d n q ->
  builtin_pure $"Math-Truncate" [P i (OVar v)] s st (fun r => exists z, is_whole r z /\ inward n q z).
Proof. exact trunc_ok. Qed.
Print Assumptions C70_truncate.
Theorem C70_whole : forall name v z i s st, In name [$"Math-Floor"; $"Math-Ceiling"; $"Math-Round"; $"Math-Truncate"] -> is_number v z ->
  builtin_pure name [P i (OVar v)] s st (fun r => is_whole r z).
Proof. exact rounding_whole. Qed.
Print Assumptions C70_whole.
Theorem C70_not_finite : forall name v d i s st, In name [$"Math-Floor"; $"Math-Ceiling"; $"Math-Round"; $"Math-Truncate"] -> is_dbl v d -> not_finite d ->
  builtin_pure name [P i (OVar v)] s st (fun r => is_dbl r d).
Proof. exact rounding_not_finite. Qed.
Print Assumptions C70_not_finite.
Theorem C70_abs : forall v d i s st, is_dbl v d -> builtin_pure $"Math-Abs" [P i (OVar v)] s st (fun r => exists e, is_dbl r e /\ unsigned d e).
Proof. exact abs_ok. Qed.
Print Assumptions C70_abs.
Theorem C70_abs_whole : forall v z i s st, is_number v z -> builtin_pure $"Math-Abs" [P i (OVar v)] s st (fun r => is_whole r (Z.abs z)).
Proof. exact abs_whole. Qed.
Print Assumptions C70_abs_whole.
Theorem C70_sqrt : forall v z i s st, 0 <= z -> is_number v (z * z) -> builtin_pure $"Math-Sqrt" [P i (OVar v)] s st (fun r => is_whole r z).
Proof. exact sqrt_ok. Qed.
Print Assumptions C70_sqrt.
(** -2.5 *)
Example C70_ex : let d := S754_finite true 5629499534213120%positive (-51) in proper d /\ fraction d (-5629499534213120) (2 ^ 51) /\
  below (-5629499534213120) (2 ^ 51) (-3) /\ above (-5629499534213120) (2 ^ 51) (-2) /\ nearest (-5629499534213120) (2 ^ 51) (-3) /\ inward (-5629499534213120) (2 ^ 51) (-2) /\
  is_number (vint 144) (12 * 12) /\ not_finite S754_nan.
Proof.
  cbv zeta. split; [split; [reflexivity|intro H; exfalso; apply H; reflexivity]|]. split; [split; reflexivity|]. unfold below, above, nearest, inward.
  split; [split; [discriminate|reflexivity]|]. split; [split; [reflexivity|discriminate]|]. split; [right; split; reflexivity|]. split; [split; [split; [discriminate|reflexivity]|discriminate]|].
  split; [left; split; [apply vint_is|unfold fits; lia]|exact Logic.I].
Qed.

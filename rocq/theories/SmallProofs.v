(** Proofs about other names, numbers of arguments, the arguments of a call and small functions. *)
Require Import String Ascii List ZArith Bool Lia.
Require Import PArith FMapPositive.
From Verif Require Import Base CppString Num Token Value State Show ScopeOps Builtins Table Eval LispTop SpecLex SpecRun SpecVal SpecNum SpecList SpecForm SpecText SpecIo SpecMix.
From Verif Require Import Wf RunProofs TextProofs StrProofs BuiltinProofs ListProofs NumProofs ErrProofs FormProofs IoProofs MixProofs.
Import ListNotations.

(** ** Other names *)
Lemma same_code : forall a b c, builtin_code a = Some c -> builtin_code b = Some c -> forall args s st o st', builtin_call a args s st o st' -> builtin_call b args s st o st'.
Proof. intros a b c A B args s st o st' H. destruct (builtin_code_call a c args s st o st' A H) as (n & E & N). exact (builtin_calls n b c args s st o st' B E N). Qed.
Lemma alias_codes : Forall (fun ab => exists c, builtin_code (fst ab) = Some c /\ builtin_code (snd ab) = Some c) aliases.
Proof. repeat constructor; eexists; split; vm_compute; reflexivity. Qed.
Lemma alias_same : forall a b, In (a, b) aliases -> forall args s st o st', builtin_call a args s st o st' <-> builtin_call b args s st o st'.
Proof.
  intros a b I args s st o st'. pose proof alias_codes as F. rewrite Forall_forall in F. destruct (F _ I) as (c & A & B). cbn [fst snd] in *.
  split; [exact (same_code a b c A B args s st o st')|exact (same_code b a c B A args s st o st')].
Qed.

(** ** Numbers of arguments *)
Lemma count_fine : forall n, fine_text (count_text n).
Proof. intro n. apply int_no_brace. Qed.
Lemma arity_fails : forall shown n args s st, fine_text shown -> length args <> n -> printable st s ->
  exists i, forall B (k : M B), bind (check_args shown (Some n) args s) (fun _ => k) st = (Throw (ELisp (miscounted shown (length args) (count_text n)) i), st).
Proof.
  intros shown n args s st F L P. destruct (throw_scope_ok unit (miscounted shown (length args) (count_text n)) st s P) as (i & T). exists i. intros B k.
  unfold check_args. destruct (Nat.eqb_spec (length args) n) as [E|_]; [congruence|]. cbn [negb].
  pose (ps := [PLit $"Bad argument count in "; PHole "0"%char; PLit $", has "; PHole "1"%char; PLit $" expected "; PHole "2"%char]).
  assert (E : Format $"Bad argument count in {0}, has {1} expected {2}" [shown; count_text (length args); count_text n] = Val (template (fill_all digits5 [shown; count_text (length args); count_text n] ps))).
  { apply (Format_full ps).
    - repeat constructor; cbn; intuition discriminate.
    - repeat constructor; try apply F; try apply count_fine.
    - unfold ps, has_hole. cbn. intros k' K H. repeat destruct K as [<-|K]; try contradiction; destruct H as [H|(wt & w & H)]; intuition discriminate. }
  unfold bind, lift. unfold count_text in E at 1 2. rewrite E.
  change (template (fill_all digits5 [shown; count_text (length args); count_text n] ps)) with ($"Bad argument count in " ++ shown ++ $", has " ++ count_text (length args) ++ $" expected " ++ count_text n ++ []).
  rewrite app_nil_r. unfold miscounted in T. rewrite T. reflexivity.
Qed.
Ltac head_of t := match t with ?f _ => head_of f | _ => t end.
Ltac to_bind := repeat match goal with |- ?l = _ => let h := head_of l in lazymatch h with @bind => fail | _ => unfold h end end.
Lemma fixed_code : Forall (fun x => exists b, builtin_code (fst x) = Some b /\
   forall R args s st, length args <> snd (snd x) -> printable st s -> exists i, call_builtin R b args s st = (Throw (ELisp (miscounted (fst (snd x)) (length args) (count_text (snd (snd x)))) i), st)) fixed_arity.
Proof.
  repeat (apply Forall_cons; [|]); [..|apply Forall_nil]; cbn [fst snd]; eexists; (split; [vm_compute; reflexivity|]); intros R args s st L Pr;
  match goal with |- exists i, _ = (Throw (ELisp (miscounted ?sh _ (count_text ?n)) _), _) => destruct (arity_fails sh n args s st ltac:(split; [cbn; intuition discriminate|discriminate]) L Pr) as (i & E); exists i end;
  cbn [call_builtin]; to_bind; try (apply E).
  destruct (printable_at _ _ Pr) as (sc & X). unfold global_of, bind at 1, bind at 1, reads at 1. rewrite (get_at _ _ _ X). unfold def_helper. apply E.
Qed.
Lemma arity_ok : forall name shown n args s st, In (name, (shown, n)) fixed_arity -> length args <> n -> printable st s ->
  exists i, builtin_call name args s st (Throw (ELisp (miscounted shown (length args) (count_text n)) i)) st.
Proof.
  intros name shown n args s st I L Pr. pose proof fixed_code as F. rewrite Forall_forall in F. destruct (F _ I) as (b & C & K). cbn [fst snd] in *.
  destruct (K (run 0) args s st L Pr) as (i & E). exists i. apply (builtin_calls 0 name b); [exact C|exact E|discriminate].
Qed.
Lemma arity_text : forall (shown : str) n (e : str), fine_text shown -> fine_text e ->
  Format $"Bad argument count in {0}, has {1} expected {2}" [shown; z_to_string (Z.of_nat n); e] = Val (miscounted shown n e).
Proof.
  intros shown n e F G.
  pose (ps := [PLit $"Bad argument count in "; PHole "0"%char; PLit $", has "; PHole "1"%char; PLit $" expected "; PHole "2"%char]).
  assert (E : Format $"Bad argument count in {0}, has {1} expected {2}" [shown; count_text n; e] = Val (template (fill_all digits5 [shown; count_text n; e] ps))).
  { apply (Format_full ps).
    - repeat constructor; cbn; intuition discriminate.
    - repeat constructor; try apply F; try apply G; try apply count_fine.
    - unfold ps, has_hole. cbn. intros k' K H. repeat destruct K as [<-|K]; try contradiction; destruct H as [H|(wt & w & H)]; intuition discriminate. }
  unfold count_text in E at 1. rewrite E.
  change (template (fill_all digits5 [shown; count_text n; e] ps)) with ($"Bad argument count in " ++ shown ++ $", has " ++ count_text n ++ $" expected " ++ e ++ []).
  rewrite app_nil_r. reflexivity.
Qed.
Lemma if_arity : forall args s st, length args <> 2%nat -> length args <> 3%nat -> printable st s ->
  exists i, builtin_call $"if" args s st (Throw (ELisp (miscounted $"if" (length args) $"18446744073709551615") i)) st.
Proof.
  intros args s st L2 L3 Pr. destruct (throw_scope_ok unit (miscounted $"if" (length args) $"18446744073709551615") st s Pr) as (i & T). exists i.
  apply (builtin_calls 0 _ BIf); [vm_compute; reflexivity| |discriminate]. cbn [call_builtin]. unfold b_if.
  destruct (Nat.eqb_spec (length args) 2) as [E|_]; [congruence|]. destruct (Nat.eqb_spec (length args) 3) as [E|_]; [congruence|]. cbn [orb].
  unfold check_args. unfold bind at 1 2, lift. rewrite arity_text by (split; [cbn; intuition discriminate|discriminate]).
  change $"18446744073709551615" with size_max_str in T |- *. rewrite T. reflexivity.
Qed.
Lemma range_fails : forall shown a b args s st, fine_text shown -> (length args < a \/ b < length args)%nat -> printable st s ->
  exists i, forall B (k : M B), bind (check_opt_args shown a b args s) (fun _ => k) st =
    (Throw (ELisp (miscounted shown (length args) ($"between " ++ count_text a ++ $" and " ++ count_text b)) i), st).
Proof.
  intros shown a b args s st F L P. destruct (throw_scope_ok unit (miscounted shown (length args) ($"between " ++ count_text a ++ $" and " ++ count_text b)) st s P) as (i & T). exists i. intros B k.
  unfold check_opt_args.
  assert (C : ((length args <? a)%nat || (b <? length args)%nat) = true) by (apply orb_true_iff; destruct L; [left|right]; apply Nat.ltb_lt; assumption). rewrite C.
  pose (ps := [PLit $"Bad argument count in "; PHole "0"%char; PLit $", has "; PHole "1"%char; PLit $" expected between "; PHole "2"%char; PLit $" and "; PHole "3"%char]).
  pose (l := [shown; count_text (length args); count_text a; count_text b]).
  assert (E : Format $"Bad argument count in {0}, has {1} expected between {2} and {3}" l = Val (template (fill_all digits5 l ps))).
  { apply (Format_full ps).
    - repeat constructor; cbn; intuition discriminate.
    - repeat constructor; try apply F; try apply count_fine.
    - unfold ps, has_hole. cbn. intros k' K H. repeat destruct K as [<-|K]; try contradiction; destruct H as [H|(wt & w & H)]; intuition discriminate. }
  unfold bind, lift. unfold l in E at 1. unfold count_text in E. rewrite E.
  change (template (fill_all digits5 l ps)) with ($"Bad argument count in " ++ shown ++ $", has " ++ count_text (length args) ++ $" expected between " ++ count_text a ++ $" and " ++ count_text b ++ []).
  rewrite app_nil_r. unfold miscounted in T. change ($" expected " ++ $"between " ++ count_text a ++ $" and " ++ count_text b) with ($" expected between " ++ count_text a ++ $" and " ++ count_text b) in T.
  rewrite T. reflexivity.
Qed.
Lemma range_arity : forall name a b args s st, In (name, (a, b)) ranged_arity -> (length args < a \/ b < length args)%nat -> printable st s ->
  exists i, builtin_call name args s st (Throw (ELisp (miscounted name (length args) ($"between " ++ count_text a ++ $" and " ++ count_text b)) i)) st.
Proof.
  intros name a b args s st I L Pr.
  assert (FT : fine_text name) by (repeat destruct I as [I|I]; try contradiction; injection I as <- _ _; (split; [cbn; intuition discriminate|discriminate])).
  destruct (range_fails name a b args s st FT L Pr) as (i & E). exists i.
  repeat destruct I as [I|I]; try contradiction; injection I as <- <- <-.
  - apply (builtin_calls 0 _ BFormat); [vm_compute; reflexivity| |discriminate]. cbn [call_builtin]. to_bind. apply E.
  - apply (builtin_calls 0 _ BSearch); [vm_compute; reflexivity| |discriminate]. cbn [call_builtin]. to_bind. apply E.
  - apply (builtin_calls 0 _ BPush); [vm_compute; reflexivity| |discriminate]. cbn [call_builtin]. to_bind. apply E.
  - apply (builtin_calls 0 _ BPop); [vm_compute; reflexivity| |discriminate]. cbn [call_builtin]. to_bind. apply E.
Qed.
(** Functions that read their first argument without looking whether there is one. *)
Lemma unchecked : forall name s st sc, In name [$"return"; $"trace"; $"sleep"] -> scope_at st s = Some sc -> exists st', builtin_call name [] s st (Undef UBIndex) st'.
Proof.
  intros name s st sc I X. repeat destruct I as [<-|I]; try contradiction.
  - eexists. apply (builtin_calls 0 _ BReturn); [vm_compute; reflexivity| |discriminate]. cbn [call_builtin]. unfold b_return, mod_scope, bind, reads. rewrite (get_at _ _ _ X). reflexivity.
  - eexists. apply (builtin_calls 0 _ BTracePrint); [vm_compute; reflexivity|reflexivity|discriminate].
  - eexists. apply (builtin_calls 0 _ BSleep); [vm_compute; reflexivity|reflexivity|discriminate].
Qed.

(** ** The arguments of a call *)
Lemma args_found : forall st c es, in_call st c es -> args_list c st = (Val es, st).
Proof.
  intros st c es (i & l & V & L). unfold args_list, scope_index, bind, reads. unfold var_at in V. destruct (scope_at st c) as [sc|] eqn:X; [|discriminate].
  rewrite (get_at _ _ _ X), lookup_find. change k_args with $"###args###". rewrite V. cbn. unfold get_vec. unfold vec_at in L. rewrite L. reflexivity.
Qed.
Lemma argscount_ok : forall st c es, in_call st c es -> (Z.of_nat (length es) <= 2147483647)%Z -> builtin_pure $"argscount" [] c st (fun r => is_int r (Z.of_nat (length es))).
Proof.
  intros st c es H B. apply (pure_intro _ BArgsCount) with (r := vint (Z.of_nat (length es))); [vm_compute; reflexivity| |apply vint_is].
  cbn [call_builtin]. unfold b_argscount, wrap0, check_args, some, bind, ret. cbn [length Nat.eqb negb]. rewrite (args_found _ _ _ H). rewrite wrap32_id by lia. reflexivity.
Qed.
Lemma args_ok : forall st c es, heap_numbered st -> in_call st c es -> builtin_list $"args" [] c st es.
Proof.
  intros st c es HN H. apply (builtin_list_intro _ BArgs); [vm_compute; reflexivity|exact HN|].
  cbn [call_builtin]. unfold b_args, check_args, bind, ret. cbn [length Nat.eqb negb]. rewrite (args_found _ _ _ H). reflexivity.
Qed.
Lemma arg_ok : forall st c es v k e w i, in_call st c es -> is_int v (Z.of_nat k) -> nth_error es k = Some e -> element e w -> builtin_pure $"arg" [P i (OVar v)] c st (fun r => r = w).
Proof.
  intros st c es v k e w i H I N E. apply (pure_intro _ BArg) with (r := w); [vm_compute; reflexivity| |reflexivity].
  cbn [call_builtin]. unfold b_arg, check_args, argv, arg, bind, lift, reads, ret. cbn [length Nat.eqb negb nth_error vref vref_obj].
  rewrite (int_value_int _ _ st I), (args_found _ _ _ H).
  assert (L : (k < length es)%nat) by (apply nth_error_Some; congruence).
  assert (B : ((0 <=? Z.of_nat k)%Z && (Z.of_nat k <? Z.of_nat (length es))%Z) = true) by (apply andb_true_iff; split; [apply Z.leb_le; lia|apply Z.ltb_lt; lia]).
  rewrite B. unfold elem_at. rewrite Nat2Z.id, N. unfold bind, lift. rewrite (element_val _ _ E). reflexivity.
Qed.
Lemma arg_out : forall st c es v z i, in_call st c es -> is_int v z -> (z < 0 \/ Z.of_nat (length es) <= z)%Z ->
  builtin_call $"arg" [P i (OVar v)] c st (Throw (ELispBase ($"Index out of range in args function (index=" ++ z_to_string z ++ $" max=" ++ count_text (length es) ++ $")"))) st.
Proof.
  intros st c es v z i H I R. apply (builtin_calls 0 _ BArg); [vm_compute; reflexivity| |discriminate].
  cbn [call_builtin]. unfold b_arg, check_args, argv, arg, bind, lift, reads, ret. cbn [length Nat.eqb negb nth_error vref vref_obj].
  rewrite (int_value_int _ _ st I), (args_found _ _ _ H).
  assert (B : ((0 <=? z)%Z && (z <? Z.of_nat (length es))%Z) = false) by (apply andb_false_iff; destruct R; [left; apply Z.leb_gt; lia|right; apply Z.ltb_ge; lia]).
  rewrite B.
  pose (ps := [PLit $"Index out of range in args function (index="; PHole "0"%char; PLit $" max="; PHole "1"%char; PLit $")"]).
  pose (l := [z_to_string z; count_text (length es)]).
  assert (E : Format $"Index out of range in args function (index={0} max={1})" l = Val (template (fill_all digits5 l ps))).
  { apply (Format_full ps).
    - repeat constructor; cbn; intuition discriminate.
    - repeat constructor; try apply int_no_brace; try apply count_fine.
    - unfold ps, has_hole. cbn. intros k' K Q. repeat destruct K as [<-|K]; try contradiction; destruct Q as [Q|(wt & w & Q)]; intuition discriminate. }
  unfold l in E at 1. unfold count_text in E. unfold bind, lift. rewrite E.
  change (template (fill_all digits5 l ps)) with ($"Index out of range in args function (index=" ++ z_to_string z ++ $" max=" ++ count_text (length es) ++ $")"). reflexivity.
Qed.
Lemma call_args : forall st st1 s c ds name names args, starts_call st st1 s c ds name names args ->
  exists fill, in_call st1 c (args ++ fill) /\ length fill = (length names - length args)%nat /\ Forall (fun p => exists i, p = P i (OVar vnil)) fill.
Proof.
  intros st st1 s c ds name names args (_ & (sc & csc & fill & _ & _ & _ & _ & _ & _ & _ & _ & _ & L & F & _ & (i & l & V & E) & _) & _).
  exists fill. split; [exists i, l; split; assumption|]. split; assumption.
Qed.
Lemma call_count : forall st st1 s c ds name names args, starts_call st st1 s c ds name names args -> (Z.of_nat (Nat.max (length names) (length args)) <= 2147483647)%Z ->
  builtin_pure $"argscount" [] c st1 (fun r => is_int r (Z.of_nat (Nat.max (length names) (length args)))).
Proof.
  intros st st1 s c ds name names args H B. destruct (call_args _ _ _ _ _ _ _ _ H) as (fill & I & L & _).
  assert (E : length (args ++ fill) = Nat.max (length names) (length args)) by (rewrite app_length, L; lia).
  rewrite <- E in *. apply argscount_ok; assumption.
Qed.
Lemma no_call : forall s st, scope_exists st s -> var_at st s $"###args###" = None -> exists st', builtin_call $"argscount" [] s st (Undef UBNullDeref) st'.
Proof.
  intros s st X V. destruct (index_missing st s $"###args###" X V) as (st' & E). exists st'. apply (builtin_calls 0 _ BArgsCount); [vm_compute; reflexivity| |discriminate].
  cbn [call_builtin]. unfold b_argscount, wrap0, check_args, args_list, some, bind, ret. cbn [length Nat.eqb negb]. change k_args with $"###args###". rewrite E. reflexivity.
Qed.

(** ** search in a list *)
Lemma search_list_ok : forall s st es ts t i, Forall2 (shows s st) es ts -> exists z, search_list t es i st = Val z /\
  ((z = (-1)%Z /\ ~ In t ts) \/ (exists n, z = (i + Z.of_nat n)%Z /\ nth_error ts n = Some t /\ ~ In t (firstn n ts))).
Proof.
  intros s st es ts t i H. revert i. induction H as [|e u es ts E H IH]; intro i; cbn [search_list].
  - exists (-1)%Z. split; [reflexivity|]. left. split; [reflexivity|intros []].
  - rewrite (shows_text _ _ _ _ E). cbn [obind]. destruct (str_eqb t u) eqn:Q.
    + apply str_eqb_iff in Q. subst u. exists i. split; [reflexivity|]. right. exists O. split; [cbn; lia|]. split; [reflexivity|intros []].
    + assert (N : t <> u) by (intros ->; rewrite (proj2 (str_eqb_iff u u) eq_refl) in Q; discriminate).
      destruct (IH (i + 1)%Z) as (z & F & [[-> K]|(n & -> & K1 & K2)]).
      * exists (-1)%Z. split; [exact F|]. left. split; [reflexivity|]. intros [<-|I]; congruence.
      * exists (i + 1 + Z.of_nat n)%Z. split; [exact F|]. right. exists (S n). split; [lia|]. split; [exact K1|]. cbn [firstn]. intros [<-|I]; congruence.
Qed.
Lemma search_in_list : forall p t q es ts s st, shows s st p t -> list_arg st q es -> Forall2 (shows s st) es ts -> (Z.of_nat (length es) <= 2147483647)%Z ->
  builtin_pure $"search" [p; q] s st (fun r => exists z, is_int r z /\ first_place t ts z).
Proof.
  intros p t q es ts s st T A E B. destruct (search_list_ok s st es ts t 0 E) as (z & F & K).
  assert (L : length es = length ts) by (clear -E; induction E; cbn; congruence).
  assert (W : wrap32 z = z).
  { apply wrap32_id. destruct K as [[-> _]|(n & -> & K & _)]; [lia|]. assert (n < length ts)%nat by (apply nth_error_Some; congruence). lia. }
  apply (pure_intro _ BSearch) with (r := vint z); [vm_compute; reflexivity| |exists z; split; [apply vint_is|]].
  - destruct (list_kinds _ _ _ A) as (j & w & -> & LK & LV & S1 & _ & _). pose proof (shows_text _ _ _ _ T) as TX. destruct T as (i & v & -> & NN & _).
    rewrite ptr_str_var in TX. cbn [call_builtin]. unfold b_search, check_opt_args, argc, argv, arg, bind, lift, reads, ret. cbn [length Nat.ltb Nat.leb orb nth_error var_of_ptr var_of_obj vref vref_obj].
    assert (TX' : var_str v st = Val t) by (unfold var_str, show_fuel; apply show_more; exact TX). rewrite TX', S1, LK, LV, F, W. reflexivity.
  - destruct K as [K|(n & -> & K1 & K2)]; [left; exact K|right; exists n; split; [lia|split; assumption]].
Qed.

(** ** Small functions *)
Lemma not_ok : forall v b i s st, is_bool v b -> builtin_pure $"not" [P i (OVar v)] s st (fun r => is_bool r (negb b)).
Proof.
  intros v b i s st H. apply (pure_intro _ BNot) with (r := vbool (negb b)); [vm_compute; reflexivity| |apply vbool_is].
  cbn [call_builtin]. unfold b_not, wrap1, check_args, argv, arg, some, bind, lift, reads, ret. cbn [length Nat.eqb negb nth_error vref vref_obj].
  rewrite (bool_value_bool _ _ st H). reflexivity.
Qed.
Lemma type_ok : forall v i s st, builtin_pure $"type" [P i (OVar v)] s st (fun r => is_int r (kind_number v)).
Proof.
  intros v i s st. apply (pure_intro _ BType) with (r := vint (kind_number v)); [vm_compute; reflexivity| |apply vint_is].
  cbn [call_builtin]. unfold b_type, wrap1, check_args, argv, arg, some, bind, lift, reads, ret. cbn [length Nat.eqb negb nth_error vref vref_obj].
  unfold kind_number. destruct (v_ty v); reflexivity.
Qed.
Lemma typestr_ok : forall v t i s st, kind_name v t -> builtin_pure $"typestr" [P i (OVar v)] s st (fun r => is_str r t).
Proof.
  intros v t i s st H. apply (pure_intro _ BTypeStr) with (r := vstr t); [vm_compute; reflexivity| |apply vstr_is].
  cbn [call_builtin]. unfold b_typestr, wrap1, check_args, argv, arg, some, bind, lift, reads, ret. cbn [length Nat.eqb negb nth_error vref vref_obj].
  unfold type_string. unfold kind_name in H. destruct (v_ty v); try (subst t; reflexivity). destruct H as [(l & ->) ->]. reflexivity.
Qed.
Lemma sym_ok : forall p t s st, shows s st p t -> builtin_pure $"sym" [p] s st (fun r => r = mkv TSym (OString t)).
Proof.
  intros p t s st H. apply (pure_intro _ BSym) with (r := mkv TSym (OString t)); [vm_compute; reflexivity| |reflexivity].
  cbn [call_builtin]. unfold b_sym, args_str, check_args, arg, some, bind, lift, reads, ret. cbn [length Nat.eqb negb nth_error].
  rewrite (shows_text _ _ _ _ H). reflexivity.
Qed.
Lemma upper_char : forall c, upper_of c (to_upper_c c).
Proof. intro c. unfold upper_of, to_upper_c. destruct ((97 <=? nat_of_ascii c)%nat && (nat_of_ascii c <=? 122)%nat) eqn:E; [|reflexivity]. apply andb_true_iff in E. destruct E as [E1 E2]. apply Nat.leb_le in E1, E2. apply nat_ascii_embedding. lia. Qed.
Lemma lower_char : forall c, lower_of c (to_lower_c c).
Proof. intro c. unfold lower_of, to_lower_c. destruct ((65 <=? nat_of_ascii c)%nat && (nat_of_ascii c <=? 90)%nat) eqn:E; [|reflexivity]. apply andb_true_iff in E. destruct E as [E1 E2]. apply Nat.leb_le in E1, E2. apply nat_ascii_embedding. lia. Qed.
Lemma seven_b : forall t, seven_bit t -> forallb is_7bit t = true.
Proof. intros t H. apply forallb_forall. intros c I. unfold seven_bit in H. rewrite Forall_forall in H. apply Nat.ltb_lt, H, I. Qed.
Lemma map_rel : forall (R : ascii -> ascii -> Prop) f, (forall c, R c (f c)) -> forall t, Forall2 R t (map f t).
Proof. intros R f H t. induction t; constructor; auto. Qed.
Lemma upper_ok : forall v t i s st, shows s st (P i (OVar v)) t -> seven_bit t ->
  builtin_pure $"upper-case" [P i (OVar v)] s st (fun r => exists u, is_str r u /\ Forall2 upper_of t u).
Proof.
  intros v t i s st H B. apply (pure_intro _ BUpper) with (r := vstr (map to_upper_c t)); [vm_compute; reflexivity| |eexists; split; [apply vstr_is|apply map_rel, upper_char]].
  cbn [call_builtin]. unfold b_upper, b_strfun, ToUpper, wrap1, check_args, argv, arg, some, bind, lift, reads, ret. cbn [length Nat.eqb negb nth_error vref vref_obj].
  pose proof (shows_text _ _ _ _ H) as T. rewrite ptr_str_var in T. assert (T' : var_str v st = Val t) by (unfold var_str, show_fuel; apply show_more; exact T).
  rewrite T', (seven_b _ B). reflexivity.
Qed.
Lemma lower_ok : forall v t i s st, shows s st (P i (OVar v)) t -> seven_bit t ->
  builtin_pure $"lower-case" [P i (OVar v)] s st (fun r => exists u, is_str r u /\ Forall2 lower_of t u).
Proof.
  intros v t i s st H B. apply (pure_intro _ BLower) with (r := vstr (map to_lower_c t)); [vm_compute; reflexivity| |eexists; split; [apply vstr_is|apply map_rel, lower_char]].
  cbn [call_builtin]. unfold b_lower, b_strfun, ToLower, wrap1, check_args, argv, arg, some, bind, lift, reads, ret. cbn [length Nat.eqb negb nth_error vref vref_obj].
  pose proof (shows_text _ _ _ _ H) as T. rewrite ptr_str_var in T. assert (T' : var_str v st = Val t) by (unfold var_str, show_fuel; apply show_more; exact T).
  rewrite T', (seven_b _ B). reflexivity.
Qed.
Lemma case_undefined : forall name v t i s st, In name [$"upper-case"; $"lower-case"] -> shows s st (P i (OVar v)) t -> ~ seven_bit t ->
  builtin_call name [P i (OVar v)] s st (Undef UBCtype) st.
Proof.
  intros name v t i s st I H B.
  assert (N : forallb is_7bit t = false).
  { apply not_true_is_false. intro K. apply B. apply Forall_forall. intros c C. rewrite forallb_forall in K. apply Nat.ltb_lt, (K c C). }
  pose proof (shows_text _ _ _ _ H) as T. rewrite ptr_str_var in T. assert (T' : var_str v st = Val t) by (unfold var_str, show_fuel; apply show_more; exact T).
  repeat destruct I as [<-|I]; try contradiction.
  - apply (builtin_calls 0 _ BUpper); [vm_compute; reflexivity| |discriminate].
    cbn [call_builtin]. unfold b_upper, b_strfun, ToUpper, wrap1, check_args, argv, arg, some, bind, lift, reads, ret. cbn [length Nat.eqb negb nth_error vref vref_obj]. rewrite T', N. reflexivity.
  - apply (builtin_calls 0 _ BLower); [vm_compute; reflexivity| |discriminate].
    cbn [call_builtin]. unfold b_lower, b_strfun, ToLower, wrap1, check_args, argv, arg, some, bind, lift, reads, ret. cbn [length Nat.eqb negb nth_error vref vref_obj]. rewrite T', N. reflexivity.
Qed.
Lemma nop_ok : forall args s st, builtin_pure $"nop" args s st (fun r => v_ty r = TUndef).
Proof. intros args s st. apply (pure_intro _ BNop) with (r := vundef); [vm_compute; reflexivity|reflexivity|reflexivity]. Qed.
Lemma flush_ok : forall s st, builtin_pure $"flush" [] s st (fun r => v_ty r = TUndef).
Proof. intros s st. apply (pure_intro _ BFlush) with (r := vundef); [vm_compute; reflexivity|reflexivity|reflexivity]. Qed.
Lemma version_ok : forall args s st, builtin_pure $"version" args s st (fun r => is_str r $"v0.99.6").
Proof.
  intros args s st. assert (E : Format $"{0}" [$"v0.99.6"] = Val $"v0.99.6") by (vm_compute; reflexivity).
  apply (pure_intro _ BVersion) with (r := vstr $"v0.99.6"); [vm_compute; reflexivity| |apply vstr_is].
  cbn [call_builtin]. unfold b_version, bind, lift. rewrite E. reflexivity.
Qed.
Lemma fuel_ok : forall args s st, builtin_pure $"fuel" args s st (fun r => is_str r $"fuel version v0.99.6 from 16.12.2023").
Proof.
  intros args s st. assert (E : Format $"fuel version {0} from {1}" [$"v0.99.6"; $"16.12.2023"] = Val $"fuel version v0.99.6 from 16.12.2023") by (vm_compute; reflexivity).
  apply (pure_intro _ BFuel) with (r := vstr $"fuel version v0.99.6 from 16.12.2023"); [vm_compute; reflexivity| |apply vstr_is].
  cbn [call_builtin]. unfold b_fuel, bind, lift. rewrite E. reflexivity.
Qed.
Lemma copyright_ok : forall args s st, builtin_pure $"copyright" args s st (fun r => is_str r $"Copyright: MIT-License http://opensource.org/licenses/MIT").
Proof.
  intros args s st. assert (E : Format $"Copyright: {0} {1}" [$"MIT-License"; $"http://opensource.org/licenses/MIT"] = Val $"Copyright: MIT-License http://opensource.org/licenses/MIT") by (vm_compute; reflexivity).
  apply (pure_intro _ BCopyright) with (r := vstr $"Copyright: MIT-License http://opensource.org/licenses/MIT"); [vm_compute; reflexivity| |apply vstr_is].
  cbn [call_builtin]. unfold b_copyright, bind, lift. rewrite E. reflexivity.
Qed.

(** ** delvar *)
Lemma str_dec_b : forall a b, str_eqb a b = if list_eq_dec ascii_dec a b then true else false.
Proof. intros a b. destruct (list_eq_dec ascii_dec a b) as [->|N]; [apply str_eqb_iff; reflexivity|]. apply not_true_is_false. intro K. apply N, str_eqb_iff, K. Qed.
Lemma lt_absent : forall k vs, all (fun kv : str * ptr => str_cmp k (fst kv) = Lt) vs -> vars_find k vs = None.
Proof.
  intros k vs. induction vs as [|[q p] vs IH]; intros H; [reflexivity|]. destruct H as [H1 H2]. cbn [vars_find fst] in *.
  destruct (str_eqb k q) eqn:E; [|apply IH, H2]. apply str_eqb_iff in E. subst q. exfalso. clear -H1. induction k as [|c k IH]; [discriminate|]. cbn in H1. rewrite Nat.compare_refl in H1. auto.
Qed.
Lemma find_remove : forall k vs n, keys_sorted vs -> vars_find n (vars_remove k vs) = if list_eq_dec ascii_dec n k then None else vars_find n vs.
Proof.
  intros k vs n. induction vs as [|[q p] vs IH]; intros H; [destruct (list_eq_dec ascii_dec n k); reflexivity|]. destruct H as [H1 H2]. cbn [vars_remove vars_find].
  destruct (str_eqb k q) eqn:E.
  - apply str_eqb_iff in E. subst q. destruct (list_eq_dec ascii_dec n k) as [->|N]; [apply lt_absent, H1|]. rewrite (str_dec_b n k). destruct (list_eq_dec ascii_dec n k); [contradiction|reflexivity].
  - cbn [vars_find]. rewrite (IH H2). destruct (list_eq_dec ascii_dec n k) as [->|N]; [rewrite E; reflexivity|reflexivity].
Qed.
Lemma delvar_ok : forall st s i v name, reachable st -> scope_exists st s -> shows s st (P i (OVar v)) name ->
  exists r st', builtin_call $"delvar" [P i (OVar v)] s st (Val (Some r)) st' /\ var_gone st st' s name /\
   (is_bool r true /\ var_at st s name <> None \/ is_bool r false /\ var_at st s name = None).
Proof.
  intros st s i v name R [sc X] H. pose proof (shows_text _ _ _ _ H) as T. rewrite ptr_str_var in T. assert (T' : var_str v st = Val name) by (unfold var_str, show_fuel; apply show_more; exact T).
  assert (KS : keys_sorted (s_vars sc)) by (destruct (reachable_ok st R) as [K _]; destruct (WfProofs.ok_scope_at st s sc K X) as [_ []]; assumption).
  pose (sc' := set_vars (vars_remove name (s_vars sc)) sc).
  pose (st' := with_scopes (PositiveMap.add s sc' (st_scopes st)) st).
  exists (vbool (match vars_find name (s_vars sc) with Some _ => true | None => false end)), st'.
  assert (F : forall u, scope_at st' u = if Pos.eqb u s then Some sc' else scope_at st u) by (intro u; apply find_scope_add).
  split; [|split].
  - apply (builtin_calls 0 _ BDelVar); [vm_compute; reflexivity| |discriminate].
    cbn [call_builtin]. unfold b_delvar, wrap1, scope_find, mod_scope, put_scope, check_args, argv, arg, some, bind, lift, reads, ret. cbn [length Nat.eqb negb nth_error vref vref_obj].
    rewrite T', (get_at _ _ _ X). cbn [obind]. reflexivity.
  - repeat (match goal with |- _ /\ _ => split | |- var_gone _ _ _ _ => unfold var_gone end); try reflexivity.
    + unfold var_at. rewrite F, Pos.eqb_refl. subst sc'. cbn [s_vars set_vars]. rewrite <- lookup_find, find_remove by exact KS. destruct (list_eq_dec ascii_dec name name); [reflexivity|congruence].
    + intros u n N. unfold var_at. rewrite F. destruct (Pos.eqb_spec u s) as [->|Q]; [|reflexivity]. rewrite X. subst sc'. cbn [s_vars set_vars]. rewrite <- !lookup_find, find_remove by exact KS.
      destruct (list_eq_dec ascii_dec n name) as [->|]; [congruence|reflexivity].
    + intros u Q. rewrite F. destruct (Pos.eqb_spec u s); [contradiction|reflexivity].
    + intro u. unfold scope_exists. rewrite F. destruct (Pos.eqb_spec u s) as [->|Q]; [rewrite X; split; intros _; eexists; reflexivity|tauto].
    + intros u a b A B. rewrite F in B. destruct (Pos.eqb_spec u s) as [->|Q].
      * assert (a = sc) by congruence. subst a. injection B as <-. subst sc'. repeat split.
      * assert (a = b) by congruence. subst b. repeat split.
  - unfold var_at. rewrite X, <- lookup_find. destruct (vars_find name (s_vars sc)); [left|right]; (split; [apply vbool_is|congruence]).
Qed.

(** ** Witnesses *)
Lemma says : forall i v t s st, v_ty v <> TNative -> call_builtin (run 0) BToString [P i (OVar v)] s st = (Val (Some (vstr t)), st) -> shows s st (P i (OVar v)) t.
Proof.
  intros i v t s st N E. exists i, v. split; [reflexivity|]. split; [exact N|]. apply (pure_intro _ BToString) with (r := vstr t); [vm_compute; reflexivity|exact E|apply vstr_is].
Qed.
Lemma not_transitive : exists u v w, forall i j s st,
  builtin_pure $"==" [P i (OVar u); P j (OVar v)] s st (fun r => is_bool r true) /\ builtin_pure $"==" [P i (OVar v); P j (OVar w)] s st (fun r => is_bool r true) /\
  builtin_pure $"==" [P i (OVar u); P j (OVar w)] s st (fun r => is_bool r false).
Proof.
  exists (vstr $"1"), (vint 1), (vbool true). intros i j s st. split; [|split].
  - destruct (equal_text (vstr $"1") (vint 1) $"1" $"1" i j s st) as (e & E & H & _); try discriminate; [apply vstr_is|apply says; [discriminate|reflexivity]|].
    destruct E as [_ E]. rewrite (E eq_refl) in H. exact H.
  - destruct (equal_int_bool (vint 1) (vbool true) 1 true (vint_is 1) (vbool_is true)) as [[(b & E & H) _] _]. destruct E as [_ E]. rewrite (E eq_refl) in H. apply H.
  - destruct (equal_text (vstr $"1") (vbool true) $"1" $"#t" i j s st) as (e & E & H & _); try discriminate; [apply vstr_is|apply says; [discriminate|reflexivity]|].
    destruct e; [destruct E as [E _]; specialize (E eq_refl); discriminate|exact H].
Qed.
Lemma sample_numbered : heap_numbered sample.
Proof.
  split; intros l x H.
  - destruct (Pos.eq_dec l 1) as [->|N]; [reflexivity|]. unfold vec_at in H. cbn [sample st_vecs with_nloc with_vecs] in H.
    rewrite PositiveMap.gso in H by exact N. rewrite PositiveMap.gempty in H. discriminate.
  - unfold dict_at in H. cbn [sample st_dicts with_nloc with_vecs fresh init_state] in H. rewrite PositiveMap.gempty in H. discriminate.
Qed.
Lemma says_text : forall i t s st, shows s st (P i (OVar (vstr t))) t.
Proof. intros i t s st. apply says; [discriminate|reflexivity]. Qed.

(** List functions. *)
Require Import String Ascii List ZArith Bool Lia.
Require Import PArith FMapPositive.
From Verif Require Import Base CppString Num Token Value State Show ScopeOps Builtins Table Eval LispTop SpecRun SpecVal SpecList
  BuiltinProofs Wf RunProofs SpecText TextProofs StrProofs NumProofs ErrProofs.
Import ListNotations.

Lemma reachable_heap : forall st, reachable st -> heap_numbered st.
Proof.
  intros st H. apply reachable_ok in H. destruct H as [[V D S] _]. split; intros l x E.
  - apply (V l x E). - apply (D l x E).
Qed.

(** ** Allocation *)
Lemma find_add : forall A l (es : A) m v, PositiveMap.find m (PositiveMap.add l es v) = if Pos.eqb m l then Some es else PositiveMap.find m v.
Proof.
  intros A l es m v. destruct (Pos.eqb_spec m l) as [->|N]; [apply PositiveMap.gss|apply PositiveMap.gso; exact N].
Qed.
Lemma alloc_list : forall es st, heap_numbered st -> exists r st', list_result es st = (Val (Some r), st') /\
  new_list_of st st' r es /\ only_adds st st' /\ heap_numbered st'.
Proof.
  intros es st [H1 H2]. eexists. eexists. split; [reflexivity|].
  assert (F : vec_at st (st_nloc st) = None).
  { destruct (vec_at st (st_nloc st)) as [x|] eqn:E; [|reflexivity]. specialize (H1 _ _ E). lia. }
  unfold only_adds, heap_numbered. repeat match goal with |- _ /\ _ => split end; try reflexivity.
  - exists (st_nloc st). split; [exact F|]. split; [|reflexivity]. split; [reflexivity|]. split; [reflexivity|].
    unfold vec_at. cbn [st_vecs with_nloc with_vecs]. apply PositiveMap.gss.
  - intros l x E. unfold vec_at. cbn [st_vecs with_nloc with_vecs].
    rewrite PositiveMap.gso; [exact E|]. intros ->. congruence.
  - intros l x E. exact E.
  - intros l x E. unfold vec_at in E. cbn [st_vecs with_nloc with_vecs] in E. cbn [st_nloc with_nloc].
    rewrite find_add in E. destruct (Pos.eqb_spec l (st_nloc st)) as [->|N]; [lia|]. specialize (H1 _ _ E). lia.
  - intros l x E. cbn [st_nloc with_nloc]. specialize (H2 _ _ E). lia.
Qed.
Lemma builtin_list_intro : forall name b args s st es, builtin_code name = Some b -> heap_numbered st ->
  call_builtin (run 0) b args s st = list_result es st -> builtin_list name args s st es.
Proof.
  intros name b args s st es C H E. destruct (alloc_list es st H) as (r & st' & L & N & A & K).
  exists r, st'. split; [|tauto]. apply (builtin_calls 0 name b); [exact C|rewrite E; exact L|discriminate].
Qed.

Lemma list_arg_value : forall st p es, list_arg st p es -> exists v, vref p = Val v /\ is_list v = true /\ is_ty TString v = false /\
  is_ty TNative v = false /\ list_value v st = Val es.
Proof.
  intros st p es (i & v & -> & H). exists v. destruct H as [(l & H)|(H & ->)].
  - split; [reflexivity|]. rewrite (list_value_list _ _ _ _ H). destruct H as (H & _).
    unfold is_list, is_ty. rewrite H. repeat split.
  - split; [reflexivity|]. unfold list_value, is_list, is_ty. rewrite H. repeat split.
Qed.
Lemma element_val : forall p v, element p v -> var_of_ptr p = Val v.
Proof. intros p v H. inversion H; reflexivity. Qed.

Ltac larg H := let v := fresh "v" in let E := fresh "E" in let L := fresh "L" in let S := fresh "S" in let N := fresh "N" in let V := fresh "V" in
  destruct (list_arg_value _ _ _ H) as (v & E & L & S & N & V).

(** ** Constructors *)
Lemma list_ok : forall args s st, heap_numbered st -> builtin_list $"list" args s st args.
Proof. intros args s st H. apply (builtin_list_intro _ BList); [vm_compute; reflexivity|exact H|reflexivity]. Qed.
Lemma cons_ok : forall x p es s st, heap_numbered st -> list_arg st p es -> builtin_list $"cons" [x; p] s st (x :: es).
Proof.
  intros x p es s st H A. larg A. apply (builtin_list_intro _ BCons); [vm_compute; reflexivity|exact H|].
  cbn [call_builtin]. unfold b_cons, bind, lift, reads. rewrite E, L, V. reflexivity.
Qed.
Lemma cons_short : forall x s st, heap_numbered st -> builtin_list $"cons" [] s st [] /\ builtin_list $"cons" [x] s st [x].
Proof. intros x s st H. split; (apply (builtin_list_intro _ BCons); [vm_compute; reflexivity|exact H|reflexivity]). Qed.
Lemma cons_pair : forall x i v s st, heap_numbered st -> v_ty v <> TList -> v_ty v <> TNil ->
  builtin_list $"cons" [x; P i (OVar v)] s st [x; P i (OVar v)].
Proof.
  intros x i v s st H A B. apply (builtin_list_intro _ BCons); [vm_compute; reflexivity|exact H|].
  cbn [call_builtin]. unfold b_cons, bind, lift, reads. cbn [vref vref_obj].
  assert (L : is_list v = false) by (unfold is_list; destruct (v_ty v); try reflexivity; congruence). rewrite L. reflexivity.
Qed.
Lemma append_lists_ok : forall st ps ess, Forall2 (list_arg st) ps ess -> append_lists ps st = Val (concat ess).
Proof.
  intros st ps ess H. induction H as [|p es ps ess A _ IH]; [reflexivity|]. larg A. cbn [append_lists concat].
  rewrite E. cbn [obind]. rewrite V. cbn [obind]. rewrite IH. reflexivity.
Qed.
Lemma append_ok : forall ps ess s st, heap_numbered st -> Forall2 (list_arg st) ps ess -> builtin_list $"append" ps s st (concat ess).
Proof.
  intros ps ess s st H A. apply (builtin_list_intro _ BAppend); [vm_compute; reflexivity|exact H|].
  cbn [call_builtin]. unfold b_append, bind, reads. rewrite (append_lists_ok _ _ _ A). reflexivity.
Qed.
Lemma reverse_ok : forall p es s st, heap_numbered st -> list_arg st p es -> builtin_list $"reverse" [p] s st (rev es).
Proof.
  intros p es s st H A. larg A. apply (builtin_list_intro _ BReverse); [vm_compute; reflexivity|exact H|].
  cbn [call_builtin]. unfold b_reverse, check_args, argv, arg, bind, lift, reads, ret. cbn [length Nat.eqb negb nth_error].
  rewrite E, S, V. reflexivity.
Qed.

(** ** Selectors *)
Lemma len_ok : forall p es s st, list_arg st p es -> (Z.of_nat (length es) <= 2147483647)%Z ->
  builtin_pure $"len" [p] s st (fun r => is_int r (Z.of_nat (length es))).
Proof.
  intros p es s st A B. larg A. apply (pure_intro _ BLength) with (r := vint (Z.of_nat (length es)));
    [vm_compute; reflexivity| |apply vint_is].
  cbn [call_builtin]. unfold b_len, check_args, argv, arg, bind, lift, reads, ret, some. cbn [length Nat.eqb negb nth_error].
  rewrite E, N, S, V. cbn iota beta. rewrite wrap32_id; [reflexivity|]. lia.
Qed.
Lemma first_ok : forall p e es v s st, list_arg st p (e :: es) -> element e v -> asks_value st s ->
  builtin_pure $"first" [p] s st (fun r => r = v).
Proof.
  intros p e es v s st A F (sc & G & B). larg A. apply (pure_intro _ BFirst) with (r := v); [vm_compute; reflexivity| |reflexivity].
  cbn [call_builtin]. unfold b_first, check_args, argv, arg, bind, lift, reads, ret, some, elem_at. cbn [length Nat.eqb negb nth_error].
  rewrite E, S. unfold get_scope. unfold scope_at in G. rewrite G, B, V. cbn [nth_error]. rewrite (element_val _ _ F). reflexivity.
Qed.
Lemma last_ok : forall p e es v s st, list_arg st p (es ++ [e]) -> element e v -> asks_value st s ->
  builtin_pure $"last" [p] s st (fun r => r = v).
Proof.
  intros p e es v s st A F (sc & G & B). larg A. apply (pure_intro _ BLast) with (r := v); [vm_compute; reflexivity| |reflexivity].
  cbn [call_builtin]. unfold b_last, check_args, argv, arg, bind, lift, reads, ret, some, elem_at. cbn [length Nat.eqb negb nth_error].
  rewrite E, S. unfold get_scope. unfold scope_at in G. rewrite G, B, V. rewrite app_length. cbn [length].
  replace (length es + 1 - 1)%nat with (length es) by lia. rewrite nth_error_app2 by lia. rewrite Nat.sub_diag. cbn [nth_error].
  destruct (es ++ [e]) eqn:Q; [destruct es; discriminate|]. rewrite (element_val _ _ F). reflexivity.
Qed.
Lemma rest_ok : forall p e es s st, heap_numbered st -> list_arg st p (e :: es) -> builtin_list $"rest" [p] s st es.
Proof.
  intros p e es s st H A. larg A. apply (builtin_list_intro _ BRest); [vm_compute; reflexivity|exact H|].
  cbn [call_builtin]. unfold b_rest, check_args, argv, arg, bind, lift, reads, ret. cbn [length Nat.eqb negb nth_error].
  rewrite E, S, V. reflexivity.
Qed.
Lemma nth_ok : forall i w z p es e v s st, is_int w z -> list_arg st p es -> (0 <= z)%Z -> nth_error es (Z.to_nat z) = Some e -> element e v ->
  asks_value st s -> builtin_pure $"nth" [P i (OVar w); p] s st (fun r => r = v).
Proof.
  intros i w z p es e v s st I A Z0 K F (sc & G & B). larg A. apply (pure_intro _ BNth) with (r := v); [vm_compute; reflexivity| |reflexivity].
  cbn [call_builtin]. unfold b_nth, check_args, argv, arg, bind, lift, reads, ret, some, elem_at.
  cbn [length Nat.eqb negb nth_error vref vref_obj].
  rewrite (int_value_int _ _ st I). cbn iota beta. rewrite E, S. unfold get_scope. unfold scope_at in G. rewrite G, B, V.
  assert (Z1 : (Z.to_nat z < length es)%nat) by (apply nth_error_Some; congruence).
  replace ((z <? 0)%Z || (Z.of_nat (length es) <=? z)%Z)%bool with false by (symmetry; apply orb_false_iff; lia).
  rewrite K, (element_val _ _ F). reflexivity.
Qed.
Lemma first_empty : forall p s st, list_arg st p [] -> asks_value st s -> builtin_call $"first" [p] s st (Undef UBIndex) st.
Proof.
  intros p s st A (sc & G & B). larg A. apply (builtin_calls 0 _ BFirst); [vm_compute; reflexivity| |discriminate].
  cbn [call_builtin]. unfold b_first, check_args, argv, arg, bind, lift, reads, ret, some, elem_at. cbn [length Nat.eqb negb nth_error].
  rewrite E, S. unfold get_scope. unfold scope_at in G. rewrite G, B, V. reflexivity.
Qed.
Lemma last_empty : forall p s st, list_arg st p [] -> asks_value st s -> builtin_call $"last" [p] s st (Undef UBIndex) st.
Proof.
  intros p s st A (sc & G & B). larg A. apply (builtin_calls 0 _ BLast); [vm_compute; reflexivity| |discriminate].
  cbn [call_builtin]. unfold b_last, check_args, argv, arg, bind, lift, reads, ret, some, elem_at. cbn [length Nat.eqb negb nth_error].
  rewrite E, S. unfold get_scope. unfold scope_at in G. rewrite G, B, V. reflexivity.
Qed.
Lemma rest_empty : forall p s st, list_arg st p [] -> builtin_call $"rest" [p] s st (Undef UBIndex) st.
Proof.
  intros p s st A. larg A. apply (builtin_calls 0 _ BRest); [vm_compute; reflexivity| |discriminate].
  cbn [call_builtin]. unfold b_rest, check_args, argv, arg, bind, lift, reads, ret, some, elem_at. cbn [length Nat.eqb negb nth_error].
  rewrite E, S, V. reflexivity.
Qed.
Lemma nth_outside : forall i w z p es s st, is_int w z -> list_arg st p es -> (z < 0 \/ Z.of_nat (length es) <= z)%Z -> asks_value st s ->
  builtin_call $"nth" [P i (OVar w); p] s st (Undef UBIndex) st.
Proof.
  intros i w z p es s st I A O (sc & G & B). larg A. apply (builtin_calls 0 _ BNth); [vm_compute; reflexivity| |discriminate].
  cbn [call_builtin]. unfold b_nth, check_args, argv, arg, bind, lift, reads, ret, some, elem_at.
  cbn [length Nat.eqb negb nth_error vref vref_obj].
  rewrite (int_value_int _ _ st I). cbn iota beta. rewrite E, S. unfold get_scope. unfold scope_at in G. rewrite G, B, V.
  replace ((z <? 0)%Z || (Z.of_nat (length es) <=? z)%Z)%bool with true by (symmetry; apply orb_true_iff; lia).
  reflexivity.
Qed.

(** ** Laws *)
Lemma new_list_arg : forall st st' r es i, new_list_of st st' r es -> list_arg st' (P i (OVar r)) es.
Proof. intros st st' r es i (l & _ & H & _). exists i, r. split; [reflexivity|]. left. exists l. exact H. Qed.
Lemma adds_asks : forall st st' s, only_adds st st' -> asks_value st s -> asks_value st' s.
Proof. intros st st' s (_ & _ & E & _) (sc & H & N). exists sc. unfold scope_at in *. rewrite E. tauto. Qed.
Lemma adds_list : forall st st' p es, only_adds st st' -> list_arg st p es -> list_arg st' p es.
Proof.
  intros st st' p es (A & _) (i & v & -> & [(l & T & V & E)|H]); exists i, v; (split; [reflexivity|]); [left|right; exact H].
  exists l. split; [exact T|]. split; [exact V|]. apply A. exact E.
Qed.
Lemma builtin_fun : forall name b args s st r st' r' st'', builtin_code name = Some b ->
  builtin_call name args s st r st' -> builtin_call name args s st r' st'' -> r = r' /\ st' = st''.
Proof.
  intros name b args s st r st' r' st'' C (f & F & H) (f' & F' & H'). assert (f = f') by congruence. subst f'.
  unfold calls in *. exact (ends_det _ _ _ _ _ _ _ (mono_call f args s) H H').
Qed.
Lemma first_cons : forall x v p es s st i, heap_numbered st -> list_arg st p es -> element x v -> asks_value st s ->
  exists r st', builtin_call $"cons" [x; p] s st (Val (Some r)) st' /\ builtin_pure $"first" [P i (OVar r)] s st' (fun w => w = v).
Proof.
  intros x v p es s st i H A F B. destruct (cons_ok x p es s st H A) as (r & st' & C & N & K & H').
  exists r, st'. split; [exact C|]. apply (first_ok _ x es); [eapply new_list_arg; eauto|exact F|eapply adds_asks; eauto].
Qed.
Lemma rest_cons : forall x p es s st i, heap_numbered st -> list_arg st p es ->
  exists r st', builtin_call $"cons" [x; p] s st (Val (Some r)) st' /\ builtin_list $"rest" [P i (OVar r)] s st' es.
Proof.
  intros x p es s st i H A. destruct (cons_ok x p es s st H A) as (r & st' & C & N & K & H').
  exists r, st'. split; [exact C|]. apply (rest_ok _ x); [exact H'|eapply new_list_arg; eauto].
Qed.
Lemma reverse_twice : forall p es s st i, heap_numbered st -> list_arg st p es ->
  exists r st', builtin_call $"reverse" [p] s st (Val (Some r)) st' /\ builtin_list $"reverse" [P i (OVar r)] s st' es.
Proof.
  intros p es s st i H A. destruct (reverse_ok p es s st H A) as (r & st' & C & N & K & H').
  exists r, st'. split; [exact C|]. rewrite <- (rev_involutive es). apply reverse_ok; [exact H'|eapply new_list_arg; eauto].
Qed.
Lemma reverse_append : forall p q es ds s st i j k, heap_numbered st -> list_arg st p es -> list_arg st q ds ->
  exists r1 st1 r2 st2 r3 st3, builtin_call $"append" [p; q] s st (Val (Some r1)) st1 /\
    builtin_call $"reverse" [q] s st1 (Val (Some r2)) st2 /\ builtin_call $"reverse" [p] s st2 (Val (Some r3)) st3 /\
    exists es', builtin_list $"reverse" [P i (OVar r1)] s st3 es' /\ builtin_list $"append" [P j (OVar r2); P k (OVar r3)] s st3 es'.
Proof.
  intros p q es ds s st i j k H A B.
  destruct (append_ok [p; q] [es; ds] s st H) as (r1 & st1 & C1 & N1 & K1 & H1); [repeat constructor; assumption|].
  destruct (reverse_ok q ds s st1 H1) as (r2 & st2 & C2 & N2 & K2 & H2); [eapply adds_list; eauto|].
  destruct (reverse_ok p es s st2 H2) as (r3 & st3 & C3 & N3 & K3 & H3); [eapply adds_list; eauto; eapply adds_list; eauto|].
  exists r1, st1, r2, st2, r3, st3. repeat split; try assumption. cbn [concat] in N1. rewrite app_nil_r in N1.
  exists (rev (es ++ ds)). split.
  - apply reverse_ok; [exact H3|]. eapply adds_list; [exact K3|]. eapply adds_list; [exact K2|]. eapply new_list_arg; eauto.
  - rewrite rev_app_distr. replace (rev ds ++ rev es) with (concat [rev ds; rev es]) by (cbn; rewrite app_nil_r; reflexivity).
    apply append_ok; [exact H3|]. constructor; [|constructor; [|constructor]].
    + eapply adds_list; [exact K3|]. eapply new_list_arg; eauto.
    + eapply new_list_arg; eauto.
Qed.

(** ** Arguments that are no lists *)
Lemma cast_fail_ok : forall A v name msg t st, string_value v st = Val t -> fine_text t -> fine_text name -> fine_text msg ->
  cast_fail (A := A) v name msg st =
  Throw (ELisp ($"Invalid cast for " ++ name ++ $", value=" ++ t ++ $" " ++ msg)
    (ErrInfo (tok_line (v_tok v)) (tok_start (v_tok v)) (tok_stop (v_tok v)) $"???" $"???")).
Proof.
  intros A v name msg t st E T N M. unfold cast_fail. rewrite E. cbn [obind].
  pose (ps := [PLit $"Invalid cast for "; PHole "2"%char; PLit $", value="; PHole "1"%char; PLit $" "; PHole "0"%char]).
  assert (F : Format $"Invalid cast for {2}, value={1} {0}" [msg; t; name] = Val (template (fill_all digits5 [msg; t; name] ps))).
  { apply (Format_full ps [msg; t; name]).
    - repeat constructor; cbn; intuition discriminate.
    - repeat constructor; try apply T; try apply N; try apply M.
    - unfold ps, has_hole. cbn. intros k K H. repeat destruct K as [<-|K]; try contradiction; destruct H as [H|(wt & w & H)]; intuition discriminate. }
  rewrite F. cbn [obind]. unfold exn_tok.
  change (template (fill_all digits5 [msg; t; name] ps)) with ($"Invalid cast for " ++ name ++ $", value=" ++ t ++ $" " ++ msg ++ []).
  rewrite app_nil_r. reflexivity.
Qed.
Lemma list_value_int : forall v z st, is_int v z -> list_value v st = Throw (ELisp ($"Invalid cast for list, value=" ++ z_to_string z ++ $" no")
    (ErrInfo (tok_line (v_tok v)) (tok_start (v_tok v)) (tok_stop (v_tok v)) $"???" $"???")).
Proof.
  intros v z st H. unfold list_value. destruct (H) as [T V]. rewrite T.
  rewrite (cast_fail_ok _ v $"list" $"no" (z_to_string z)).
  - rewrite <- ?app_assoc. reflexivity.
  - unfold string_value. rewrite V. reflexivity.
  - apply int_no_brace.
  - split; [cbn; intuition discriminate|discriminate].
  - split; [cbn; intuition discriminate|discriminate].
Qed.
Lemma no_list_error : forall name v z i s st, In name [$"first"; $"last"; $"rest"; $"len"; $"reverse"; $"append"] -> is_int v z -> asks_value st s ->
  builtin_call name [P i (OVar v)] s st (Throw (ELisp ($"Invalid cast for list, value=" ++ z_to_string z ++ $" no")
    (ErrInfo (tok_line (v_tok v)) (tok_start (v_tok v)) (tok_stop (v_tok v)) $"???" $"???"))) st.
Proof.
  intros name v z i s st I H (sc & G & B). pose proof (list_value_int v z st H) as L. destruct H as [T V].
  assert (S : is_ty TString v = false) by (unfold is_ty; rewrite T; reflexivity).
  assert (N : is_ty TNative v = false) by (unfold is_ty; rewrite T; reflexivity).
  unfold scope_at in G.
  cbn [In] in I. repeat destruct I as [<-|I]; try contradiction.
  - apply (builtin_calls 0 _ BFirst); [vm_compute; reflexivity| |discriminate].
    cbn [call_builtin]. unfold b_first, check_args, argv, arg, bind, lift, reads, ret, get_scope. cbn [length Nat.eqb negb nth_error vref vref_obj].
    rewrite S, G, B, L. reflexivity.
  - apply (builtin_calls 0 _ BLast); [vm_compute; reflexivity| |discriminate].
    cbn [call_builtin]. unfold b_last, check_args, argv, arg, bind, lift, reads, ret, get_scope. cbn [length Nat.eqb negb nth_error vref vref_obj].
    rewrite S, G, B, L. reflexivity.
  - apply (builtin_calls 0 _ BRest); [vm_compute; reflexivity| |discriminate].
    cbn [call_builtin]. unfold b_rest, check_args, argv, arg, bind, lift, reads, ret, get_scope. cbn [length Nat.eqb negb nth_error vref vref_obj].
    rewrite S, L. reflexivity.
  - apply (builtin_calls 0 _ BLength); [vm_compute; reflexivity| |discriminate].
    cbn [call_builtin]. unfold b_len, check_args, argv, arg, bind, lift, reads, ret, get_scope. cbn [length Nat.eqb negb nth_error vref vref_obj].
    rewrite N, S, L. reflexivity.
  - apply (builtin_calls 0 _ BReverse); [vm_compute; reflexivity| |discriminate].
    cbn [call_builtin]. unfold b_reverse, check_args, argv, arg, bind, lift, reads, ret, get_scope. cbn [length Nat.eqb negb nth_error vref vref_obj].
    rewrite S, L. reflexivity.
  - apply (builtin_calls 0 _ BAppend); [vm_compute; reflexivity| |discriminate].
    cbn [call_builtin]. unfold b_append, bind, reads. cbn [append_lists vref vref_obj obind]. rewrite L. reflexivity.
Qed.

(** ** push and pop *)
Lemma adds_put : forall st l es r st', heap_numbered st -> vec_at st l <> None ->
  list_result es (with_vecs (PositiveMap.add l es (st_vecs st)) st) = (Val (Some r), st') ->
  list_becomes st st' l es /\ heap_numbered st' /\ (exists m, m <> l /\ is_list_at st' r m es).
Proof.
  intros st l es r st' [H1 H2] L E. unfold list_result, new_list_obj, alloc_vec, bind, ret, some in E. injection E as <- <-.
  assert (Q : (l < st_nloc st)%positive) by (destruct (vec_at st l) as [x|] eqn:X; [exact (H1 _ _ X)|congruence]).
  unfold list_becomes, heap_numbered. repeat match goal with |- _ /\ _ => split end; try reflexivity; unfold vec_at in *;
    cbn [st_vecs with_nloc with_vecs st_nloc] in *.
  - rewrite PositiveMap.gso by lia. apply PositiveMap.gss.
  - intros m ds N X. assert (Y := H1 m ds X). rewrite !PositiveMap.gso by (auto; lia). exact X.
  - intros m d X. exact X.
  - intros m ds X. rewrite !find_add in X. destruct (Pos.eqb_spec m (st_nloc st)); [lia|].
    destruct (Pos.eqb_spec m l); [lia|]. specialize (H1 _ _ X). lia.
  - intros m d X. specialize (H2 _ _ X). lia.
  - exists (st_nloc st). split; [lia|]. split; [reflexivity|]. split; [reflexivity|].
    unfold vec_at. cbn [st_vecs with_nloc with_vecs]. apply PositiveMap.gss.
Qed.
Lemma push_ok : forall v p w l es k pos a b s st, heap_numbered st -> is_list_at st w l es ->
  (pos = None /\ k = 0%nat \/ pos = Some (Z.of_nat k)) -> (k < length es)%nat ->
  exists q r st', builtin_call $"push" (P a (OVar v) :: P p (OVar w) :: pos_args b pos) s st (Val (Some r)) st' /\
    element q v /\ list_becomes st st' l (firstn k es ++ q :: skipn k es) /\ heap_numbered st' /\
    exists m, m <> l /\ is_list_at st' r m (firstn k es ++ q :: skipn k es).
Proof.
  intros v p w l es k pos a b s st H L K B.
  set (q := P (st_nid st) (OVar v)). set (st1 := with_nid (Pos.succ (st_nid st)) st).
  assert (H1 : heap_numbered st1) by exact H.
  destruct (list_result (insert_at k q es) (with_vecs (PositiveMap.add l (insert_at k q es) (st_vecs st1)) st1)) as [o st'] eqn:E.
  assert (exists r, o = Val (Some r)) as [r ->] by (unfold list_result, new_list_obj, alloc_vec, bind, ret, some in E; inversion E; eauto).
  exists q, r, st'. assert (L0 : vec_at st1 l <> None) by (destruct L as (_ & _ & X); change (vec_at st1 l) with (vec_at st l); congruence).
  destruct (adds_put st1 l _ r st' H1 L0 E) as (K1 & K2 & K3).
  split; [|split; [constructor|split; [exact K1|split; [exact K2|exact K3]]]].
  apply (builtin_calls 0 _ BPush); [vm_compute; reflexivity| |discriminate].
  cbn [call_builtin]. unfold b_push, check_opt_args, argv, arg, bind, lift, reads.
  assert (L1 : list_loc w st = Val (Some l)) by (destruct L as (T & V & _); unfold list_loc; rewrite T, V; reflexivity).
  assert (L2 : get_vec l st = Val es) by (destruct L as (_ & _ & X); unfold get_vec; unfold vec_at in X; rewrite X; reflexivity).
  assert (L3 : is_list w = true) by (destruct L as (T & _); unfold is_list; rewrite T; reflexivity).
  assert (Z1 : (Z.of_nat k <? Z.of_nat (length es))%Z = true) by lia.
  assert (Z2 : (Z.of_nat k <? 0)%Z = false) by lia.
  destruct K as [[-> ->]| ->]; cbn [pos_args length Nat.ltb Nat.leb orb nth_error]; unfold ret; cbn [vref vref_obj].
  - rewrite L3, L1. cbn [loc_elems]. rewrite L2. change (Z.of_nat 0) with 0%Z in Z1, Z2. rewrite Z1, Z2.
    unfold new_var_ptr, new_ptr, put_vec. change (Z.to_nat 0) with 0%nat. exact E.
  - rewrite (to_int_int _ _ st (vint_is (Z.of_nat k))). rewrite L3, L1. cbn [loc_elems]. rewrite L2, Z1, Z2.
    unfold new_var_ptr, new_ptr, put_vec. rewrite Nat2Z.id. exact E.
Qed.
Lemma push_ignored : forall v p w es z pos a b s st, list_arg st (P p (OVar w)) es ->
  (pos = None /\ z = 0%Z \/ pos = Some z) -> (Z.of_nat (length es) <= z)%Z ->
  builtin_pure $"push" (P a (OVar v) :: P p (OVar w) :: pos_args b pos) s st (fun r => v_ty r = TNil).
Proof.
  intros v p w es z pos a b s st L K B.
  apply (pure_intro _ BPush) with (r := vnil); [vm_compute; reflexivity| |reflexivity].
  assert (L1 : exists o, list_loc w st = Val o /\ loc_elems o st = Val es).
  { destruct L as (i & w' & E & [(l & T & V & X)|(T & ->)]); injection E as <- <-; unfold list_loc; rewrite T; [rewrite V|].
    - exists (Some l). split; [reflexivity|]. cbn [loc_elems]. unfold get_vec. unfold vec_at in X. rewrite X. reflexivity.
    - exists None. split; reflexivity. }
  destruct L1 as (o & L1 & L2). destruct (list_arg_value _ _ _ L) as (v0 & E & L3 & _). injection E as <-.
  cbn [call_builtin]. unfold b_push, check_opt_args, argv, arg, bind, lift, reads.
  assert (Z1 : (z <? Z.of_nat (length es))%Z = false) by lia.
  destruct K as [[-> ->]| ->]; cbn [pos_args length Nat.ltb Nat.leb orb nth_error]; unfold ret; cbn [vref vref_obj].
  - rewrite L3, L1, L2, Z1. reflexivity.
  - rewrite (to_int_int _ _ st (vint_is z)). rewrite L3, L1, L2, Z1. reflexivity.
Qed.
Lemma push_negative : forall v p w es z a b s st, list_arg st (P p (OVar w)) es -> (z < 0)%Z ->
  builtin_call $"push" [P a (OVar v); P p (OVar w); P b (OVar (vint z))] s st (Undef UBIndex) st.
Proof.
  intros v p w es z a b s st L B. apply (builtin_calls 0 _ BPush); [vm_compute; reflexivity| |discriminate].
  assert (L1 : exists o, list_loc w st = Val o /\ loc_elems o st = Val es).
  { destruct L as (i & w' & E & [(l & T & V & X)|(T & ->)]); injection E as <- <-; unfold list_loc; rewrite T; [rewrite V|].
    - exists (Some l). split; [reflexivity|]. cbn [loc_elems]. unfold get_vec. unfold vec_at in X. rewrite X. reflexivity.
    - exists None. split; reflexivity. }
  destruct L1 as (o & L1 & L2). destruct (list_arg_value _ _ _ L) as (v0 & E & L3 & _). injection E as <-.
  cbn [call_builtin]. unfold b_push, check_opt_args, argv, arg, bind, lift, reads, ret.
  cbn [length Nat.ltb Nat.leb orb nth_error vref vref_obj].
  assert (Z1 : (z <? Z.of_nat (length es))%Z = true) by lia. assert (Z2 : (z <? 0)%Z = true) by lia.
  rewrite (to_int_int _ _ st (vint_is z)). rewrite L3, L1, L2, Z1, Z2. reflexivity.
Qed.
Lemma pop_ok : forall w p l es k e v pos b s st, heap_numbered st -> is_list_at st w l es ->
  (pos = None /\ k = 0%nat \/ pos = Some (Z.of_nat k)) -> nth_error es k = Some e -> element e v ->
  exists st', builtin_call $"pop" (P p (OVar w) :: pos_args b pos) s st (Val (Some v)) st' /\
    list_becomes st st' l (firstn k es ++ skipn (S k) es) /\ heap_numbered st'.
Proof.
  intros w p l es k e v pos b s st [H1 H2] L K N F.
  exists (with_vecs (PositiveMap.add l (remove_at k es) (st_vecs st)) st).
  assert (L1 : list_loc w st = Val (Some l)) by (destruct L as (T & V & _); unfold list_loc; rewrite T, V; reflexivity).
  assert (L2 : get_vec l st = Val es) by (destruct L as (_ & _ & X); unfold get_vec; unfold vec_at in X; rewrite X; reflexivity).
  assert (L3 : is_list w = true) by (destruct L as (T & _); unfold is_list; rewrite T; reflexivity).
  assert (B : (k < length es)%nat) by (apply nth_error_Some; congruence).
  assert (Z1 : (Z.of_nat k <? Z.of_nat (length es))%Z = true) by lia.
  assert (Z2 : (Z.of_nat k <? 0)%Z = false) by lia.
  split; [|split].
  - apply (builtin_calls 0 _ BPop); [vm_compute; reflexivity| |discriminate].
    cbn [call_builtin]. unfold b_pop, check_opt_args, argv, arg, bind, lift, reads.
    destruct K as [[-> ->]| ->]; cbn [pos_args length Nat.ltb Nat.leb orb nth_error]; unfold ret; cbn [vref vref_obj].
    + rewrite L3, L1. cbn [loc_elems]. rewrite L2. change (Z.of_nat 0) with 0%Z in Z1, Z2. rewrite Z1, Z2.
      change (Z.to_nat 0) with 0%nat. rewrite N. unfold put_vec. rewrite (element_val _ _ F). reflexivity.
    + rewrite (to_int_int _ _ st (vint_is (Z.of_nat k))). rewrite L3, L1. cbn [loc_elems]. rewrite L2, Z1, Z2.
      rewrite Nat2Z.id, N. unfold put_vec. rewrite (element_val _ _ F). reflexivity.
  - unfold list_becomes. repeat match goal with |- _ /\ _ => split end; try reflexivity; unfold vec_at; cbn [st_vecs with_vecs].
    + apply PositiveMap.gss.
    + intros m ds M X. rewrite PositiveMap.gso by exact M. exact X.
    + intros m d X. exact X.
  - destruct L as (_ & _ & L). assert (Y := H1 _ _ L). split.
    + intros m ds X. unfold vec_at in X. cbn [st_vecs with_vecs] in X. rewrite find_add in X. cbn [st_nloc with_vecs].
      destruct (Pos.eqb_spec m l) as [->|M]; [exact Y|exact (H1 _ _ X)].
    + intros m d X. exact (H2 _ _ X).
Qed.
Lemma pop_ignored : forall p w es z pos b s st, list_arg st (P p (OVar w)) es ->
  (pos = None /\ z = 0%Z \/ pos = Some z) -> (Z.of_nat (length es) <= z)%Z ->
  builtin_pure $"pop" (P p (OVar w) :: pos_args b pos) s st (fun r => v_ty r = TNil).
Proof.
  intros p w es z pos b s st L K B.
  apply (pure_intro _ BPop) with (r := vnil); [vm_compute; reflexivity| |reflexivity].
  assert (L1 : exists o, list_loc w st = Val o /\ loc_elems o st = Val es).
  { destruct L as (i & w' & E & [(l & T & V & X)|(T & ->)]); injection E as <- <-; unfold list_loc; rewrite T; [rewrite V|].
    - exists (Some l). split; [reflexivity|]. cbn [loc_elems]. unfold get_vec. unfold vec_at in X. rewrite X. reflexivity.
    - exists None. split; reflexivity. }
  destruct L1 as (o & L1 & L2). destruct (list_arg_value _ _ _ L) as (v0 & E & L3 & _). injection E as <-.
  cbn [call_builtin]. unfold b_pop, check_opt_args, argv, arg, bind, lift, reads.
  assert (Z1 : (z <? Z.of_nat (length es))%Z = false) by lia.
  destruct K as [[-> ->]| ->]; cbn [pos_args length Nat.ltb Nat.leb orb nth_error]; unfold ret; cbn [vref vref_obj].
  - rewrite L3, L1, L2, Z1. reflexivity.
  - rewrite (to_int_int _ _ st (vint_is z)). rewrite L3, L1, L2, Z1. reflexivity.
Qed.
Lemma pop_push : forall v p w l es k pos a b s st, heap_numbered st -> is_list_at st w l es ->
  (pos = None /\ k = 0%nat \/ pos = Some (Z.of_nat k)) -> (k < length es)%nat ->
  exists r st1 st2, builtin_call $"push" (P a (OVar v) :: P p (OVar w) :: pos_args b pos) s st (Val (Some r)) st1 /\
    builtin_call $"pop" (P p (OVar w) :: pos_args b pos) s st1 (Val (Some v)) st2 /\ list_becomes st st2 l es.
Proof.
  intros v p w l es k pos a b s st H L K B.
  destruct (push_ok v p w l es k pos a b s st H L K B) as (q & r & st1 & C1 & Q & (V1 & O1 & D1 & R1) & H1 & _).
  set (es1 := firstn k es ++ q :: skipn k es) in *.
  assert (L1 : is_list_at st1 w l es1) by (destruct L as (T & V & _); split; [exact T|split; [exact V|exact V1]]).
  assert (F : length (firstn k es) = k) by (apply firstn_length_le; lia).
  assert (N : nth_error es1 k = Some q).
  { unfold es1. rewrite nth_error_app2 by lia. rewrite F, Nat.sub_diag. reflexivity. }
  destruct (pop_ok w p l es1 k q v pos b s st1 H1 L1 K N Q) as (st2 & C2 & (V2 & O2 & D2 & R2) & H2).
  exists r, st1, st2. split; [exact C1|]. split; [exact C2|].
  assert (E : firstn k es1 ++ skipn (S k) es1 = es).
  { unfold es1. rewrite firstn_app, F, Nat.sub_diag. cbn [firstn]. rewrite app_nil_r.
    rewrite firstn_firstn, Nat.min_id. rewrite skipn_app, F. replace (S k - k)%nat with 1%nat by lia.
    rewrite (skipn_all2 (n := S k) (firstn k es)) by lia. cbn [skipn app]. apply firstn_skipn. }
  rewrite E in V2. split; [exact V2|]. split; [intros m ds M X; apply O2; auto|]. split; [intros m d X; apply D2; auto|].
  intuition congruence.
Qed.

(** ** map and reduce *)
Lemma copied_run : forall e st a st', copied e st a st' -> copy_ptr e st = (Val a, st').
Proof.
  intros e st a st' H. destruct H as [i v st|i l es st E]; [reflexivity|].
  unfold copy_ptr, bind, lift, reads. cbn [deref]. unfold obj_copy, bind, reads, get_vec. unfold vec_at in E. rewrite E. reflexivity.
Qed.
Lemma maps_run : forall f s es st ps vs st', maps_to f s es st ps vs st' -> exists n, forall m, (n <= m)%nat ->
  map_loop (run m) f es s st = (Val ps, st').
Proof.
  intros f s es st ps vs st' H. induction H as [st|e es st a st1 v st2 p st3 ps vs st4 C K [-> ->] M (n & IH)].
  - exists 0%nat. reflexivity.
  - destruct K as (m & K & N). exists (Nat.max n m). intros k Hk. cbn [map_loop]. unfold bind at 1.
    rewrite (copied_run _ _ _ _ C). unfold bind at 1.
    rewrite (ends_at _ _ _ _ _ _ k (mono_call f [a] s) K N) by lia.
    unfold some_var, bind at 1, ret at 1. unfold new_var_ptr, new_ptr, bind at 1. unfold bind. rewrite IH by lia. reflexivity.
Qed.
Lemma maps_fail : forall f s es1 e es2 st ps vs st1 a st2 o o' st3, maps_to f s es1 st ps vs st1 -> copied e st1 a st2 ->
  calls f [a] s st2 o st3 -> fails o o' ->
  exists n, forall m, (n <= m)%nat -> exists o1, map_loop (run m) f (es1 ++ e :: es2) s st = (o1, st3) /\
    match o' with Val _ => False | Throw x => o1 = Throw x | Undef x => o1 = Undef x | Unmod x => o1 = Unmod x | NoFuel => False end.
Proof.
  intros f s es1 e es2 st ps vs st1 a st2 o o' st3 H C K F. induction H as [st|e0 es st a0 st10 v st20 p st30 ps vs st40 C0 K0 [-> ->] M IH].
  - destruct K as (m & K & N). exists m. intros k Hk. cbn [app map_loop]. unfold bind at 1.
    rewrite (copied_run _ _ _ _ C). unfold bind at 1. rewrite (ends_at _ _ _ _ _ _ k (mono_call f [a] s) K N) by lia.
    destruct o as [[v|]|x|x|x|]; cbn in F; subst; try contradiction; try congruence; eexists; (split; [reflexivity|]); reflexivity.
  - destruct (IH C) as (n & IH'). destruct K0 as (m & K0 & N). exists (Nat.max n m). intros k Hk. cbn [app map_loop]. unfold bind at 1.
    rewrite (copied_run _ _ _ _ C0). unfold bind at 1.
    rewrite (ends_at _ _ _ _ _ _ k (mono_call f [a0] s) K0 N) by lia.
    unfold some_var, bind at 1, ret at 1. unfold new_var_ptr, new_ptr, bind at 1. unfold bind.
    destruct (IH' k ltac:(lia)) as (o1 & E & X). rewrite E. destruct o'; subst; try contradiction; eexists; (split; [reflexivity|]); reflexivity.
Qed.
Lemma check_for_list_arg : forall name p es s st, list_arg st p es -> check_for_list name p s st = (Val es, st).
Proof.
  intros name p es s st A. larg A. destruct A as (i & w & -> & _). injection E as <-. unfold check_for_list, bind, lift, reads.
  cbn [deref vref_obj]. rewrite N, L. cbn [andb]. rewrite V. reflexivity.
Qed.
Lemma check_for_function_fn : forall name i v f s st, is_fn v f -> check_for_function name (P i (OVar v)) s st = (Val f, st).
Proof.
  intros name i v f s st [T V]. unfold check_for_function, bind, lift, reads, function_value. cbn [vref vref_obj].
  unfold is_ty. rewrite T, V. reflexivity.
Qed.
Lemma map_head : forall R i v f p es s st, is_fn v f -> list_arg st p es ->
  b_map R [P i (OVar v); p] s st = bind (map_loop R f es s) list_result st.
Proof.
  intros R i v f p es s st F A. unfold b_map, check_args, arg. cbn [length Nat.eqb negb nth_error].
  unfold bind at 1. unfold ret at 1. unfold bind at 1. unfold ret at 1. unfold bind at 1. rewrite (check_for_function_fn _ _ _ f _ _ F).
  unfold bind at 1. unfold ret at 1. unfold bind at 1. rewrite (check_for_list_arg _ _ _ _ _ A). reflexivity.
Qed.
Lemma map_ok : forall i v f p es s st ps vs st1, is_fn v f -> list_arg st p es -> maps_to f s es st ps vs st1 ->
  exists r l st', builtin_call $"map" [P i (OVar v); p] s st (Val (Some r)) st' /\ is_list_at st' r l ps /\
    Forall2 (fun q w => exists j, q = P j (OVar w)) ps vs /\ (heap_numbered st1 -> vec_at st1 l = None /\ only_adds st1 st').
Proof.
  intros i v f p es s st ps vs st1 F A M. destruct (maps_run _ _ _ _ _ _ _ M) as (n & R). specialize (R n (le_n _)).
  destruct (list_result ps st1) as [o st'] eqn:E.
  assert (exists r, o = Val (Some r)) as [r ->] by (unfold list_result, new_list_obj, alloc_vec, bind, ret, some in E; inversion E; eauto).
  exists r, (st_nloc st1), st'. split; [|split; [|split]].
  - apply (builtin_calls n _ BMap); [vm_compute; reflexivity| |discriminate]. cbn [call_builtin].
    rewrite (map_head _ _ _ f _ es) by assumption. unfold bind. rewrite R. exact E.
  - unfold list_result, new_list_obj, alloc_vec, bind, ret, some in E. injection E as <- <-. split; [reflexivity|]. split; [reflexivity|].
    unfold vec_at. cbn [st_vecs with_nloc with_vecs]. apply PositiveMap.gss.
  - clear - M. induction M as [|? ? ? ? ? ? ? ? ? ? ? ? ? ? [-> ->] M IH]; constructor; eauto.
  - intro H. destruct (alloc_list ps st1 H) as (r' & st'' & E' & (l & N & (_ & V & _) & _) & O & _). rewrite E in E'.
    injection E' as <- <-. unfold list_result, new_list_obj, alloc_vec, bind, ret, some in E. injection E as <- <-.
    cbn in V. injection V as <-. split; assumption.
Qed.
Lemma map_fail : forall i v f p es1 e es2 s st ps vs st1 a st2 o o' st3, is_fn v f -> list_arg st p (es1 ++ e :: es2) ->
  maps_to f s es1 st ps vs st1 -> copied e st1 a st2 -> calls f [a] s st2 o st3 -> fails o o' ->
  builtin_call $"map" [P i (OVar v); p] s st o' st3.
Proof.
  intros i v f p es1 e es2 s st ps vs st1 a st2 o o' st3 F A M C K X. assert (N : o <> NoFuel) by (destruct K as (n & _ & N); exact N).
  destruct (maps_fail _ _ _ _ es2 _ _ _ _ _ _ _ _ _ M C K X) as (n & R). destruct (R n (le_n _)) as (o1 & R1 & R2).
  apply (builtin_calls n _ BMap); [vm_compute; reflexivity| |].
  - cbn [call_builtin]. rewrite (map_head _ _ _ f _ _ _ _ F A). unfold bind. rewrite R1. destruct o'; subst; try contradiction; reflexivity.
  - destruct o as [[|]| | | |]; cbn in X; subst; try discriminate; try contradiction; exact N.
Qed.
Lemma copied_total : forall e st v, element e v -> (forall l, v_val v = Some (OList l) -> vec_at st l <> None) -> exists a st', copied e st a st'.
Proof.
  intros e st v H V. destruct H as [i v|i l]; [do 2 eexists; constructor|].
  destruct (vec_at st l) as [es|] eqn:E; [|exfalso; exact (V l eq_refl E)]. do 2 eexists. constructor. exact E.
Qed.
Lemma copy_inv : forall e st a st', (exists v, element e v) -> copy_ptr e st = (Val a, st') -> copied e st a st'.
Proof.
  intros e st a st' (v & H) E. destruct H as [i v|i l].
  - unfold copy_ptr, bind, lift in E. cbn in E. injection E as <- <-. constructor.
  - unfold copy_ptr, bind, lift in E. cbn [deref] in E. unfold obj_copy, bind, reads, get_vec in E.
    destruct (PositiveMap.find l (st_vecs st)) as [es|] eqn:G; [|discriminate]. cbn in E. injection E as <- <-. constructor. exact G.
Qed.
Lemma maps_inv : forall n f s es st ps st', elements es -> map_loop (run n) f es s st = (Val ps, st') ->
  exists vs, maps_to f s es st ps vs st'.
Proof.
  intros n f s. induction es as [|e es IH]; intros st ps st' F E; cbn [map_loop] in E.
  - unfold ret in E. injection E as <- <-. exists []. constructor.
  - inversion F as [|? ? F1 F2]; subst. unfold bind at 1 in E. destruct (copy_ptr e st) as [oa sa] eqn:C.
    destruct oa as [a|?|?|?|]; try discriminate. unfold bind at 1 in E.
    destruct (r_call (run n) f [a] s sa) as [o sb] eqn:K. destruct o as [o|?|?|?|]; try discriminate.
    destruct o as [v|]; [|discriminate]. unfold some_var, bind at 1, ret at 1, new_var_ptr, new_ptr, bind at 1 in E.
    unfold bind in E.
    destruct (map_loop (run n) f es s (with_nid (Pos.succ (st_nid sb)) sb)) as [op sd] eqn:M. destruct op as [qs|?|?|?|]; try discriminate.
    unfold ret in E. injection E as <- <-. destruct (IH _ _ _ F2 M) as (vs & G). exists (v :: vs).
    econstructor; [exact (copy_inv _ _ _ _ F1 C)|exists n; split; [exact K|discriminate]|split; reflexivity|exact G].
Qed.
Lemma map_only : forall i v f p es s st r st', is_fn v f -> list_arg st p es -> elements es ->
  builtin_call $"map" [P i (OVar v); p] s st (Val (Some r)) st' -> exists ps vs st1, maps_to f s es st ps vs st1 /\ exists l, is_list_at st' r l ps.
Proof.
  intros i v f p es s st r st' F A Q C. destruct (builtin_code_call $"map" BMap _ _ _ _ _ ltac:(vm_compute; reflexivity) C) as (n & E & _).
  cbn [call_builtin] in E. rewrite (map_head _ _ _ f _ es _ _ F A) in E. unfold bind in E.
  destruct (map_loop (run n) f es s st) as [[ps|?|?|?|] st1] eqn:M; try discriminate.
  destruct (maps_inv _ _ _ _ _ _ _ Q M) as (vs & G). exists ps, vs, st1. split; [exact G|]. exists (st_nloc st1).
  unfold list_result, new_list_obj, alloc_vec, bind, ret, some in E. injection E as <- <-. split; [reflexivity|]. split; [reflexivity|].
  unfold vec_at. cbn [st_vecs with_nloc with_vecs]. apply PositiveMap.gss.
Qed.

Lemma folds_run : forall f s es acc st w st', folds_to f s es acc st w st' -> exists n, forall m, (n <= m)%nat ->
  reduce_loop (run m) f es acc s st = (Val w, st').
Proof.
  intros f s es acc st w st' H. induction H as [acc st|e es acc st a st1 b st2 v st3 w st4 C [-> ->] K M (n & IH)].
  - exists 0%nat. reflexivity.
  - destruct K as (m & K & N). exists (Nat.max n m). intros k Hk. cbn [reduce_loop]. unfold bind at 1.
    rewrite (copied_run _ _ _ _ C). unfold bind at 1. unfold new_var_ptr, new_ptr at 1. unfold bind at 1.
    rewrite (ends_at _ _ _ _ _ _ k (mono_call f [a; P (st_nid st1) (OVar acc)] s) K N) by lia.
    unfold some_var, bind at 1, ret at 1. apply IH. lia.
Qed.
Lemma reduce_head : forall R i v f p es j w s st, is_fn v f -> list_arg st p es ->
  b_reduce R [P i (OVar v); p; P j (OVar w)] s st = bind (reduce_loop R f es w s) some st.
Proof.
  intros R i v f p es j w s st F A. unfold b_reduce, check_args, argv, arg. cbn [length Nat.eqb negb nth_error].
  unfold bind at 1. unfold ret at 1. unfold bind at 1. unfold ret at 1. unfold bind at 1. rewrite (check_for_function_fn _ _ _ f _ _ F).
  unfold bind at 1. unfold ret at 1. unfold bind at 1. rewrite (check_for_list_arg _ _ _ _ _ A). reflexivity.
Qed.
Lemma reduce_ok : forall i v f p es j w s st r st', is_fn v f -> list_arg st p es -> folds_to f s es w st r st' ->
  builtin_call $"reduce" [P i (OVar v); p; P j (OVar w)] s st (Val (Some r)) st'.
Proof.
  intros i v f p es j w s st r st' F A M. destruct (folds_run _ _ _ _ _ _ _ M) as (n & R). specialize (R n (le_n _)).
  apply (builtin_calls n _ BReduce); [vm_compute; reflexivity| |discriminate]. cbn [call_builtin].
  rewrite (reduce_head _ _ _ f _ es) by assumption. unfold bind. rewrite R. reflexivity.
Qed.
Lemma folds_inv : forall n f s es acc st w st', elements es -> reduce_loop (run n) f es acc s st = (Val w, st') -> folds_to f s es acc st w st'.
Proof.
  intros n f s. induction es as [|e es IH]; intros acc st w st' F E; cbn [reduce_loop] in E.
  - unfold ret in E. injection E as <- <-. constructor.
  - inversion F as [|? ? F1 F2]; subst. unfold bind at 1 in E. destruct (copy_ptr e st) as [oa sa] eqn:C.
    destruct oa as [a|?|?|?|]; try discriminate. unfold bind at 1 in E. unfold new_var_ptr, new_ptr at 1 in E. unfold bind at 1 in E.
    destruct (r_call (run n) f [a; P (st_nid sa) (OVar acc)] s (with_nid (Pos.succ (st_nid sa)) sa)) as [o sb] eqn:K.
    destruct o as [o|?|?|?|]; try discriminate. destruct o as [v|]; [|discriminate]. unfold some_var, bind at 1, ret at 1 in E.
    econstructor; [exact (copy_inv _ _ _ _ F1 C)|split; reflexivity|exists n; split; [exact K|discriminate]|apply IH; assumption].
Qed.
Lemma reduce_only : forall i v f p es j w s st r st', is_fn v f -> list_arg st p es -> elements es ->
  builtin_call $"reduce" [P i (OVar v); p; P j (OVar w)] s st (Val (Some r)) st' -> folds_to f s es w st r st'.
Proof.
  intros i v f p es j w s st r st' F A Q C.
  destruct (builtin_code_call $"reduce" BReduce _ _ _ _ _ ltac:(vm_compute; reflexivity) C) as (n & E & _).
  cbn [call_builtin] in E. rewrite (reduce_head _ _ _ f _ es _ _ _ _ F A) in E. unfold bind in E.
  destruct (reduce_loop (run n) f es w s st) as [[u|?|?|?|] st1] eqn:M; try discriminate. unfold some, ret in E. injection E as <- <-.
  exact (folds_inv _ _ _ _ _ _ _ _ Q M).
Qed.
Lemma reduce_fail : forall i v f p es1 e es2 j w s st u st1 a st2 b st3 o o' st4, is_fn v f -> list_arg st p (es1 ++ e :: es2) ->
  folds_to f s es1 w st u st1 -> copied e st1 a st2 -> boxed u st2 b st3 -> calls f [a; b] s st3 o st4 -> fails o o' ->
  builtin_call $"reduce" [P i (OVar v); p; P j (OVar w)] s st o' st4.
Proof.
  intros i v f p es1 e es2 j w s st u st1 a st2 b st3 o o' st4 F A M C [-> ->] K X.
  assert (N : o <> NoFuel) by (destruct K as (n & _ & N); exact N).
  assert (R : exists n, forall m, (n <= m)%nat -> exists o1, reduce_loop (run m) f (es1 ++ e :: es2) w s st = (o1, st4) /\
    match o' with Val _ => False | Throw x => o1 = Throw x | Undef x => o1 = Undef x | Unmod x => o1 = Unmod x | NoFuel => False end).
  { clear A F. induction M as [acc st|e0 es acc st a0 st10 b0 st20 v0 st30 w0 st40 C0 [-> ->] K0 M IH].
    - destruct K as (m & K & _). exists m. intros k Hk. cbn [app reduce_loop]. unfold bind at 1.
      rewrite (copied_run _ _ _ _ C). unfold bind at 1. unfold new_var_ptr, new_ptr at 1. unfold bind at 1.
      rewrite (ends_at _ _ _ _ _ _ k (mono_call f [a; P (st_nid st2) (OVar acc)] s) K N) by lia.
      destruct o as [[?|]|x|x|x|]; cbn in X; subst; try contradiction; try congruence; eexists; (split; [reflexivity|]); reflexivity.
    - destruct (IH C K) as (n & IH'). destruct K0 as (m & K0 & N0). exists (Nat.max n m). intros k Hk. cbn [app reduce_loop]. unfold bind at 1.
      rewrite (copied_run _ _ _ _ C0). unfold bind at 1. unfold new_var_ptr, new_ptr at 1. unfold bind at 1.
      rewrite (ends_at _ _ _ _ _ _ k (mono_call f [a0; P (st_nid st10) (OVar acc)] s) K0 N0) by lia.
      unfold some_var, bind at 1, ret at 1. apply IH'. lia. }
  destruct R as (n & R). destruct (R n (le_n _)) as (o1 & R1 & R2).
  apply (builtin_calls n _ BReduce); [vm_compute; reflexivity| |].
  - cbn [call_builtin]. rewrite (reduce_head _ _ _ f _ _ _ _ _ _ F A). unfold bind. rewrite R1. destruct o'; subst; try contradiction; reflexivity.
  - destruct o as [[|]| | | |]; cbn in X; subst; try discriminate; try contradiction; exact N.
Qed.

(** ** Strings *)
Lemma seq_strings : forall v t i s st, is_str v t -> (Z.of_nat (length t) <= 2147483647)%Z ->
  builtin_pure $"len" [P i (OVar v)] s st (fun r => is_int r (Z.of_nat (length t))) /\
  builtin_pure $"reverse" [P i (OVar v)] s st (fun r => is_str r (rev t)) /\
  builtin_pure $"first" [P i (OVar v)] s st (fun r => is_str r (firstn 1 t)).
Proof.
  intros v t i s st H B. pose proof (string_value_str v t st H) as V. destruct H as [T _].
  assert (S : is_ty TString v = true) by (unfold is_ty; rewrite T; reflexivity).
  assert (N : is_ty TNative v = false) by (unfold is_ty; rewrite T; reflexivity).
  split; [|split].
  - apply (pure_intro _ BLength) with (r := vint (Z.of_nat (length t))); [vm_compute; reflexivity| |apply vint_is].
    cbn [call_builtin]. unfold b_len, check_args, argv, arg, bind, lift, reads, ret, some. cbn [length Nat.eqb negb nth_error vref vref_obj].
    rewrite N, S, V. rewrite wrap32_id by lia. reflexivity.
  - apply (pure_intro _ BReverse) with (r := vstr (rev t)); [vm_compute; reflexivity| |apply vstr_is].
    cbn [call_builtin]. unfold b_reverse, check_args, argv, arg, bind, lift, reads, ret, some. cbn [length Nat.eqb negb nth_error vref vref_obj].
    rewrite S, V. reflexivity.
  - apply (pure_intro _ BFirst) with (r := vstr (firstn 1 t)); [vm_compute; reflexivity| |apply vstr_is].
    cbn [call_builtin]. unfold b_first, check_args, argv, arg, bind, lift, reads, ret, some. cbn [length Nat.eqb negb nth_error vref vref_obj].
    rewrite S, V. unfold substr. reflexivity.
Qed.
Lemma rest_string : forall v c t i s st, is_str v (c :: t) -> builtin_pure $"rest" [P i (OVar v)] s st (fun r => is_str r t).
Proof.
  intros v c t i s st H. pose proof (string_value_str v _ st H) as V. destruct H as [T _].
  assert (S : is_ty TString v = true) by (unfold is_ty; rewrite T; reflexivity).
  apply (pure_intro _ BRest) with (r := vstr t); [vm_compute; reflexivity| |apply vstr_is].
  cbn [call_builtin]. unfold b_rest, check_args, argv, arg, bind, lift, reads, ret, some. cbn [length Nat.eqb negb nth_error vref vref_obj].
  rewrite S, V. reflexivity.
Qed.
Lemma rest_string_empty : forall v i s st, is_str v [] -> builtin_call $"rest" [P i (OVar v)] s st (Throw EOutOfRange) st /\
  builtin_call $"last" [P i (OVar v)] s st (Throw EOutOfRange) st.
Proof.
  intros v i s st H. pose proof (string_value_str v _ st H) as V. destruct H as [T _].
  assert (S : is_ty TString v = true) by (unfold is_ty; rewrite T; reflexivity). split.
  - apply (builtin_calls 0 _ BRest); [vm_compute; reflexivity| |discriminate].
    cbn [call_builtin]. unfold b_rest, check_args, argv, arg, bind, lift, reads, ret, some. cbn [length Nat.eqb negb nth_error vref vref_obj].
    rewrite S, V. reflexivity.
  - apply (builtin_calls 0 _ BLast); [vm_compute; reflexivity| |discriminate].
    cbn [call_builtin]. unfold b_last, check_args, argv, arg, bind, lift, reads, ret, some. cbn [length Nat.eqb negb nth_error vref vref_obj].
    rewrite S, V. reflexivity.
Qed.
Lemma last_string : forall v t c i s st, is_str v (t ++ [c]) -> builtin_pure $"last" [P i (OVar v)] s st (fun r => is_str r [c]).
Proof.
  intros v t c i s st H. pose proof (string_value_str v _ st H) as V. destruct H as [T _].
  assert (S : is_ty TString v = true) by (unfold is_ty; rewrite T; reflexivity).
  apply (pure_intro _ BLast) with (r := vstr [c]); [vm_compute; reflexivity| |apply vstr_is].
  cbn [call_builtin]. unfold b_last, check_args, argv, arg, bind, lift, reads, ret, some. cbn [length Nat.eqb negb nth_error vref vref_obj].
  rewrite S, V. rewrite app_length. cbn [length]. unfold substr_z, substr_from.
  replace (Z.of_nat (length t + 1) - 1)%Z with (Z.of_nat (length t)) by lia. rewrite app_length. cbn [length]. rewrite Nat2Z.id.
  replace ((Z.of_nat (length t) <? 0)%Z || (Z.of_nat (length t + 1) <? Z.of_nat (length t))%Z)%bool with false by (symmetry; apply orb_false_iff; lia).
  replace (length t + 1 <? length t)%nat with false by (symmetry; apply Nat.ltb_ge; lia).
  rewrite skipn_app, skipn_all, Nat.sub_diag. reflexivity.
Qed.
Lemma nth_string : forall i w z j v t s st, is_int w z -> is_str v t ->
  ((0 <= z <= Z.of_nat (length t))%Z -> builtin_pure $"nth" [P i (OVar w); P j (OVar v)] s st (fun r => is_str r (firstn 1 (skipn (Z.to_nat z) t)))) /\
  (~ (0 <= z <= Z.of_nat (length t))%Z -> builtin_call $"nth" [P i (OVar w); P j (OVar v)] s st (Throw EOutOfRange) st).
Proof.
  intros i w z j v t s st I H. pose proof (string_value_str v _ st H) as V. destruct H as [T _].
  assert (S : is_ty TString v = true) by (unfold is_ty; rewrite T; reflexivity). split; intro B.
  - apply (pure_intro _ BNth) with (r := vstr (firstn 1 (skipn (Z.to_nat z) t))); [vm_compute; reflexivity| |apply vstr_is].
    cbn [call_builtin]. unfold b_nth, check_args, argv, arg, bind, lift, reads, ret, some.
    cbn [length Nat.eqb negb nth_error vref vref_obj]. rewrite (int_value_int _ _ st I). rewrite S, V.
    unfold substr_z, substr.
    replace ((z <? 0)%Z || (Z.of_nat (length t) <? z)%Z)%bool with false by (symmetry; apply orb_false_iff; lia).
    replace (length t <? Z.to_nat z)%nat with false by (symmetry; apply Nat.ltb_ge; lia).
    destruct t as [|c t]; [rewrite !skipn_nil, !firstn_nil; reflexivity|].
    replace (Z.to_nat (Z.min 1 (Z.of_nat (length (c :: t))))) with 1%nat by (cbn [length]; lia). reflexivity.
  - apply (builtin_calls 0 _ BNth); [vm_compute; reflexivity| |discriminate].
    cbn [call_builtin]. unfold b_nth, check_args, argv, arg, bind, lift, reads, ret, some.
    cbn [length Nat.eqb negb nth_error vref vref_obj]. rewrite (int_value_int _ _ st I). rewrite S, V. unfold substr_z.
    replace ((z <? 0)%Z || (Z.of_nat (length t) <? z)%Z)%bool with true by (symmetry; apply orb_true_iff; lia). reflexivity.
Qed.

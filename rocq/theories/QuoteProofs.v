(** Macros expanded before evaluation, quote, eval, quasiquote. *)
Require Import String Ascii List ZArith Bool Lia.
Require Import PArith FMapPositive FinFun.
From Verif Require Import Base CppString Num Token Parser Value State Show ScopeOps Builtins Table Eval LispTop SpecRun SpecVal SpecList SpecForm SpecCalc SpecMacro
  BuiltinProofs Wf FuelProofs RunProofs NumProofs ErrProofs ListProofs FormProofs ClosProofs CalcProofs MacroProofs.
Import ListNotations.

(** ** quote *)
Lemma noted_vec : forall st s tok l, vec_at (noted st s tok) l = vec_at st l.
Proof. intros. apply (changes_vec no_var). apply changes_noted. Qed.
Lemma noted_heap : forall st s tok, heap_numbered st -> heap_numbered (noted st s tok).
Proof. intros st s tok H. unfold noted. destruct tok; [|exact H]. destruct (scope_at st s); exact H. Qed.
Lemma noted_code : forall st s tok, (forall p t, code_at st p t -> code_at (noted st s tok) p t) /\ (forall ps ts, codes_at st ps ts -> codes_at (noted st s tok) ps ts).
Proof.
  intros st s tok. apply code_at_both.
  - intros. apply ca_atom. - intros i l ps ts E _ IH. eapply ca_list; [rewrite noted_vec; exact E|exact IH].
  - apply cs_nil. - intros. apply cs_cons; assumption.
Qed.
Lemma noted_standard : forall st s tok name, standard st s name -> standard (noted st s tok) s name.
Proof. intros st s tok name. apply (standard_changes no_var); [apply changes_noted|apply apart_none]. Qed.
Lemma ends_pure : forall A (f : nat -> M A) st o st', o <> NoFuel -> (forall n, f n st = (o, st')) -> ends_with f st o st'.
Proof. intros A f st o st' N H. exists O. split; [apply H|exact N]. Qed.
Lemma quote_gives : forall st s p tok x t, heap_numbered st -> form st p $"quote" tok [x] -> standard st s $"quote" -> plain x -> code_at st x t ->
  exists v st', evals p s st (Val (Some v)) st' /\ holds st' v t /\ only_adds (noted st s tok) st' /\ heap_numbered st' /\ settled v /\
    (forall i l es, x = P i (OList l) -> vec_at st l = Some es -> exists l', is_list_at st' v l' es).
Proof.
  intros st s p tok x t HN F S PL C. assert (H1 := noted_heap st s tok HN). inversion C as [i v|i l ps ts E CS]; subst.
  - exists v, (noted st s tok). split; [|split; [reflexivity|split; [apply adds_refl|split; [exact H1|split; [exact PL|discriminate]]]]].
    apply (special_builtin _ _ _ _ _ _ BQuote F S); [vm_compute; reflexivity|vm_compute; reflexivity|apply Forall_cons; [exact PL|constructor]|].
    apply ends_pure; [discriminate|]. intro n. reflexivity.
  - set (st1 := noted st s tok) in *. exists (mkv TList (OList (st_nloc st1))), (more_vec ps st1).
    assert (A1 : only_adds st1 (more_vec ps st1)). { unfold only_adds. split; [intros l' z Z; apply (more_vec_old ps st1 l' z H1 Z)|]. repeat split; auto. }
    split; [|split; [|split; [exact A1|split; [apply more_vec_heap, H1|split; [left; discriminate|]]]]].
    + apply (special_builtin _ _ _ _ _ _ BQuote F S); [vm_compute; reflexivity|vm_compute; reflexivity|apply Forall_cons; [exact PL|constructor]|].
      apply ends_pure; [discriminate|]. intro n. fold st1. cbn [call_builtin]. unfold b_quote. unfold bind at 1. change (check_args $"quote" (Some 1%nat) [P i (OList l)] s st1) with (Val tt, st1). cbv iota beta.
      unfold bind at 1. change (arg 0 [P i (OList l)] st1) with (Val (P i (OList l)), st1). cbv iota beta. unfold bind at 1, lift. cbn [deref]. cbn [obj_copy]. unfold bind at 1, bind at 1, reads, get_vec.
      assert (E1 : PositiveMap.find l (st_vecs st1) = Some ps) by (generalize (noted_vec st s tok l); fold st1; unfold vec_at in *; congruence). rewrite E1. reflexivity.
    + exists (st_nloc st1), ps. split; [split; [reflexivity|split; [reflexivity|apply more_vec_at]]|]. eapply forall2_adds; [exact A1|]. apply (proj2 (noted_code st s tok)), CS.
  + intros i' l' es EQ VE. injection EQ as <- <-. rewrite E in VE. injection VE as <-. exists (st_nloc st1). split; [reflexivity|]. split; [reflexivity|apply more_vec_at].
Qed.
Lemma quote_value : forall st s p tok x t, heap_numbered st -> form st p $"quote" tok [x] -> standard st s $"quote" -> plain x -> code_at st x t ->
  exists v st', evals p s st (Val (Some v)) st' /\ holds st' v t /\ only_adds (noted st s tok) st'.
Proof. intros st s p tok x t HN F S PL C. destruct (quote_gives st s p tok x t HN F S PL C) as (v & st' & A & B & D & _). exists v, st'. auto. Qed.
(** ** eval of a quoted expression *)
Lemma eval_same_list : forall n st p q es s, expr_list st p es -> expr_list st q es -> r_eval (run n) p s st = r_eval (run n) q s st.
Proof. intros [|n] st p q es s A B; [reflexivity|]. rewrite (expr_eval _ _ _ _ _ A), (expr_eval _ _ _ _ _ B). reflexivity. Qed.
Lemma eval_same_atom : forall n st i j v s, r_eval (run n) (P i (OVar v)) s st = r_eval (run n) (P j (OVar v)) s st.
Proof. intros [|n] st i j v s; reflexivity. Qed.
Lemma eval_quoted : forall st s p q tok tok2 x t, heap_numbered st -> form st p $"eval" tok [q] -> standard st s $"eval" ->
  form st q $"quote" tok2 [x] -> (exists i l, q = P i (OList l)) -> standard st s $"quote" -> plain x -> code_at st x t -> is_nil_atom t = false ->
  (forall v, t = CAtom v -> v_ty v <> TList) ->
  exists st1, only_adds (noted (noted st s tok) s tok2) st1 /\ code_at st1 x t /\ forall o st', evals p s st o st' <-> evals x s st1 o st'.
Proof.
  intros st s p q tok tok2 x t HN F S FQ (iq & lq & ->) SQ PL C NN NL.
  assert (FQ1 : form (noted st s tok) (P iq (OList lq)) $"quote" tok2 [x]) by (apply (form_changes no_var st); [apply changes_noted|exact FQ]).
  assert (C1 := proj1 (noted_code st s tok) _ _ C).
  destruct (quote_gives (noted st s tok) s _ tok2 x t (noted_heap _ _ _ HN) FQ1 (noted_standard _ _ _ _ SQ) PL C1) as (v & st2 & E2 & HO & A2 & H2 & SE & SAME).
  set (st3 := with_nid (Pos.succ (st_nid st2)) st2). set (a := P (st_nid st2) (OVar v)).
  assert (EV : evaluated s [P iq (OList lq)] (noted st s tok) [a] st3) by (eapply ev_list; [exact E2|exact SE|split; reflexivity|apply ev_nil]).
  assert (DI : forall o st', evals p s st o st' <-> ends_with (fun n => call_builtin (run n) BEval [a] s) st3 o st').
  { intros o st'. rewrite (ordinary_builtin st s p $"eval" tok [P iq (OList lq)] [P iq (OList lq)] [a] st3 o st' F S ltac:(vm_compute; reflexivity)); [|apply Forall2_cons; [apply lu_list|apply Forall2_nil]|exact EV].
    split; [intro H; apply (builtin_code_call $"eval"); [vm_compute; reflexivity|exact H]|]. intros (n & H & N). eapply builtin_calls; [vm_compute; reflexivity|exact H|exact N]. }
  assert (A3 : only_adds (noted (noted st s tok) s tok2) st3) by (eapply adds_trans; [exact A2|apply adds_nid]).
  assert (C2 := proj1 (noted_code _ s tok2) _ _ C1). inversion C2 as [i w|i l ps ts E CS]; subst.
  - cbn [holds] in HO. subst w. set (st4 := with_nid (Pos.succ (st_nid st3)) st3). exists st4. split; [eapply adds_trans; [exact A3|apply adds_nid]|]. split; [apply ca_atom|].
    intros o st'. rewrite DI. apply (ends_from _ (fun n => call_builtin (run n) BEval [a] s) (fun n => r_eval (run n) (P i (OVar v)) s) st3 st4 O); [apply mono_builtin|apply mono_eval|].
    intros n _. cbn [call_builtin]. unfold b_eval. unfold bind at 1. change (check_args $"eval" (Some 1%nat) [a] s st3) with (Val tt, st3). cbv iota beta. unfold bind at 1. change (argv 0 [a] st3) with (Val v, st3). cbv iota beta.
    assert (IL : is_list v = false). { specialize (NL v eq_refl). cbn [is_nil_atom] in NN. unfold is_list. rewrite NN. destruct (v_ty v); try reflexivity. congruence. }
    rewrite IL. unfold bind at 1. change (new_var_ptr v st3) with (Val (P (st_nid st3) (OVar v)), st4). cbv iota beta. apply eval_same_atom.
  - rewrite noted_vec in E. destruct (SAME i l ps eq_refl E) as (l' & T & V & IE). rewrite noted_vec in E. destruct (adds_list ps st3 H2) as (A4 & H4 & V4). set (st4 := with_nid (Pos.succ (st_nid st3)) (more_vec ps st3)) in *.
    exists st4. assert (A5 := adds_trans _ _ _ A3 A4). split; [exact A5|]. assert (C4 := proj1 (adds_code _ _ A5) _ _ C2). split; [exact C4|].
    assert (X4 : expr_list st4 (P i (OList l)) ps) by (left; exists i, l; split; [reflexivity|apply A5; rewrite !noted_vec; exact E]).
    intros o st'. rewrite DI. apply (ends_from _ (fun n => call_builtin (run n) BEval [a] s) (fun n => r_eval (run n) (P i (OList l)) s) st3 st4 O); [apply mono_builtin|apply mono_eval|].
    intros n _. cbn [call_builtin]. unfold b_eval. unfold bind at 1. change (check_args $"eval" (Some 1%nat) [a] s st3) with (Val tt, st3). cbv iota beta. unfold bind at 1. change (argv 0 [a] st3) with (Val v, st3). cbv iota beta.
    unfold is_list. rewrite T. change (ltype_eqb TList TList || ltype_eqb TList TNil) with true. unfold bind at 1, reads. rewrite (list_value_list st3 v l' ps); [|repeat split; [exact T|exact V|exact IE]].
    unfold bind at 1. rewrite list_ptr_run. apply (eval_same_list n st4 _ _ ps); [left; eexists _, _; split; [reflexivity|exact V4]|exact X4].
Qed.

(** ** quasiquote *)
Scheme filled_mut := Minimality for filled Sort Prop with fills_mut := Minimality for fills Sort Prop.
Combined Scheme filled_both from filled_mut, fills_mut.
Definition quasi_item (R : recs) (it : ptr) (s : sid) : M (list ptr) :=
  let! o := lift (deref it) in
  match o with
  | OList l => let! es := reads (get_vec l) in let! r := r_quasi R es s in
      let '(res, splicing) := r in if splicing then let! v := lift (vref res) in reads (list_value v) else ret [res]
  | _ => ret [it]
  end.
Definition fills_item (s : sid) (p : ptr) (st : state) (qs : list ptr) (st' : state) : Prop :=
  eventually (fun n => quasi_item (run n) p s) st (Val qs, st') /\
  forall i l es, p = P i (OList l) -> vec_at st l = Some es -> exists q b, eventually (fun n => r_quasi (run n) es s) st (Val (q, b), st') /\ (b = false -> qs = [q]) /\
    (b = true -> exists h e, es = [h; e] /\ expr_sym h $"_unquotesplicing").
Lemma sym_name : forall (i : positive) v name st, is_sym v name -> (match OVar v with OVar v => if is_ty TSym v then let! t := reads (var_str v) in ret (Some t) else ret None | _ => ret None end) st = (Val (Some name), st).
Proof. intros i v name st SY. cbv beta iota. rewrite (is_ty_of _ _ _ (proj1 SY)). tys. unfold bind, reads. rewrite (var_str_sym _ _ _ SY). reflexivity. Qed.
Lemma quasi_list : forall R i l es s st, vec_at st l = Some es -> quasi_item R (P i (OList l)) s st =
  bind (r_quasi R es s) (fun r => let '(res, splicing) := r in if splicing then let! v := lift (vref res) in reads (list_value v) else ret [res]) st.
Proof. intros R i l es s st E. unfold quasi_item. unfold bind at 1, lift. cbn [deref]. unfold bind at 1, reads at 1, get_vec. unfold vec_at in E. rewrite E. reflexivity. Qed.
Lemma fill_runs : forall s, (forall p st qs st', filled s p st qs st' -> fills_item s p st qs st') /\
  (forall ps st qs st', fills s ps st qs st' -> eventually (fun n => quasi_items (run n) ps s) st (Val qs, st')).
Proof.
  intro s. apply filled_both.
  - intros i v st. split; [exists O; intros; reflexivity|discriminate].
  - intros i l h e v st st1 q st2 E (ih & vh & -> & SY) (n1 & R1 & N1) (-> & ->).
    assert (Q : eventually (fun n => r_quasi (run n) [P ih (OVar vh); e] s) st (Val (P (st_nid st1) (OVar (marked UnqUnquote v)), false), with_nid (Pos.succ (st_nid st1)) st1)).
    { exists (S n1). intros m L. rewrite run_S by lia. cbn [step r_quasi]. unfold quasi. unfold bind at 1, lift. cbn [deref]. unfold bind at 1. rewrite (sym_name ih vh _ st SY). change (str_eqb $"_unquote" n_unquote || str_eqb $"_unquote" n_unquotesplicing) with true. cbv iota.
      unfold bind at 1. rewrite (ends_at _ (fun n => r_eval (run n) e s) st _ _ n1 (m - 1)%nat (mono_eval e s) R1 N1) by lia. unfold bind at 1, some_var. reflexivity. }
    split; [destruct Q as (n & Q); exists n; intros m L; rewrite (quasi_list _ _ _ _ _ _ E); unfold bind at 1; rewrite Q by exact L; reflexivity|].
    intros i' l' es EQ VE. injection EQ as <- <-. rewrite E in VE. injection VE as <-. eexists _, false. split; [exact Q|]. split; [reflexivity|discriminate].
  - intros i l h e v st st1 q st2 l' es E (ih & vh & -> & SY) (n1 & R1 & N1) IL (-> & ->).
    assert (Q : eventually (fun n => r_quasi (run n) [P ih (OVar vh); e] s) st (Val (P (st_nid st1) (OVar (marked UnqSplice v)), true), with_nid (Pos.succ (st_nid st1)) st1)).
    { exists (S n1). intros m L. rewrite run_S by lia. cbn [step r_quasi]. unfold quasi. unfold bind at 1, lift. cbn [deref]. unfold bind at 1. rewrite (sym_name ih vh _ st SY). change (str_eqb $"_unquotesplicing" n_unquote || str_eqb $"_unquotesplicing" n_unquotesplicing) with true. cbv iota.
      unfold bind at 1. rewrite (ends_at _ (fun n => r_eval (run n) e s) st _ _ n1 (m - 1)%nat (mono_eval e s) R1 N1) by lia. unfold bind at 1, some_var. reflexivity. }
    split.
    + destruct Q as (n & Q). exists n. intros m L. rewrite (quasi_list _ _ _ _ _ _ E). unfold bind at 1. rewrite Q by exact L. unfold bind at 1, lift. cbn [vref vref_obj]. unfold reads.
      rewrite (list_value_list _ _ l' es); [reflexivity|]. destruct IL as (A & B & C). split; [exact A|]. split; [exact B|exact C].
    + intros i' l2 es' EQ VE. injection EQ as <- <-. rewrite E in VE. injection VE as <-. eexists _, true. split; [exact Q|]. split; [discriminate|]. intros _. eexists _, _. split; [reflexivity|]. exists ih, vh. auto.
  - intros i l h e st q st1 E OH NL.
    assert (REST : (bind (new_list_ptr [h; e]) (fun p => ret (p, false))) st = (Val (q, false), st1)) by (unfold bind; rewrite NL; reflexivity).
    assert (Q : eventually (fun n => r_quasi (run n) [h; e] s) st (Val (q, false), st1)).
    { exists 1%nat. intros m L. rewrite run_S by lia. cbn [step r_quasi]. unfold quasi. destruct OH as [(ih & lh & ->)|[(ih & v & -> & T)|(name & (ih & v & -> & SY) & N1 & N2)]]; unfold bind at 1, lift; cbn [deref].
      - exact REST.
      - unfold bind at 1. assert (ET : is_ty TSym v = false) by (unfold is_ty; destruct (v_ty v); try reflexivity; congruence). rewrite ET. exact REST.
      - unfold bind at 1. rewrite (sym_name ih v _ st SY). replace (str_eqb name n_unquote || str_eqb name n_unquotesplicing) with false; [exact REST|].
        symmetry. apply orb_false_iff. split; apply str_eqb_neq; assumption. }
    split; [destruct Q as (n & Q); exists n; intros m L; rewrite (quasi_list _ _ _ _ _ _ E); unfold bind at 1; rewrite Q by exact L; reflexivity|].
    intros i' l' es EQ VE. injection EQ as <- <-. rewrite E in VE. injection VE as <-. eexists _, false. split; [exact Q|]. split; [reflexivity|discriminate].
  - intros i l es st qs st1 q st2 E LN _ (n1 & R1) NL.
    assert (Q : eventually (fun n => r_quasi (run n) es s) st (Val (q, false), st2)).
    { exists (S n1). intros m L. rewrite run_S by lia. cbn [step r_quasi]. unfold quasi. specialize (R1 (m - 1)%nat ltac:(lia)).
      destruct es as [|e1 [|e2 [|e3 es]]]; try (exfalso; apply LN; reflexivity); (unfold bind at 1; rewrite R1; unfold bind; rewrite NL; reflexivity). }
    split; [destruct Q as (n & Q); exists n; intros m L; rewrite (quasi_list _ _ _ _ _ _ E); unfold bind at 1; rewrite Q by exact L; reflexivity|].
    intros i' l' es' EQ VE. injection EQ as <- <-. rewrite E in VE. injection VE as <-. eexists _, false. split; [exact Q|]. split; [reflexivity|discriminate].
  - intro st. exists O. intros. reflexivity.
  - intros p ps st qs st1 rs st2 _ ((n1 & R1) & _) _ (n2 & R2). exists (Nat.max n1 n2). intros m L. specialize (R1 m ltac:(lia)). cbn [quasi_items]. unfold quasi_item, bind at 1 in R1. unfold bind at 1.
    destruct (lift (deref p) st) as (o & sto) eqn:E0. destruct o as [o| | | |]; try discriminate R1. unfold bind at 1. rewrite R1. unfold bind at 1. rewrite R2 by lia. reflexivity.
Qed.
Lemma quasi_value : forall st s p tok x q v st', form st p $"quasiquote" tok [x] -> standard st s $"quasiquote" -> plain x -> not_spliced_at st x ->
  filled s x (noted st s tok) [q] st' -> value_at q v -> evals p s st (Val (Some v)) st'.
Proof.
  intros st s p tok x q v st' F S PL NS FI VA.
  apply (special_builtin _ _ _ _ _ _ BQuasiquote F S); [vm_compute; reflexivity|vm_compute; reflexivity|apply Forall_cons; [exact PL|constructor]|].
  set (st1 := noted st s tok) in *.
  assert (X : (exists i w, x = P i (OVar w) /\ q = P i (OVar w) /\ st' = st1) \/ exists i l es, x = P i (OList l) /\ vec_at st1 l = Some es).
  { inversion FI; subst; [left; eexists _, _; repeat split|right; eauto..]. }
  destruct X as [(i & w & -> & -> & ->)|(i & l & es & -> & E)].
  - destruct VA as [(j & Q)|(j & l & Q & _)]; [|discriminate]. injection Q as <- <-. apply ends_pure; [discriminate|]. intro n. reflexivity.
  - destruct (proj2 (proj1 (fill_runs s) _ _ _ _ FI) i l es eq_refl E) as (q' & b & (n1 & R1) & B0 & B1). destruct b.
    + exfalso. destruct (B1 eq_refl) as (h & e & -> & HS). unfold st1 in E. rewrite noted_vec in E. exact (NS i l h e eq_refl E HS).
    + specialize (B0 eq_refl). injection B0 as <-. exists n1. split; [|discriminate]. cbn [call_builtin]. unfold b_quasiquote. unfold bind at 1. change (check_args $"quasiquote" (Some 1%nat) [P i (OList l)] s st1) with (Val tt, st1). cbv iota beta.
      unfold bind at 1. change (arg 0 [P i (OList l)] st1) with (Val (P i (OList l)), st1). cbv iota beta. unfold bind at 1, lift. cbn [deref]. unfold bind at 1, reads, get_vec. unfold vec_at in E. rewrite E.
      unfold bind at 1. rewrite R1 by lia. cbn [fst]. destruct VA as [(j & ->)|(j & l' & -> & ->)]; reflexivity.
Qed.
Lemma no_unquote_list : forall ts, no_unquote (CList ts) = true <-> Forall (fun t => no_unquote t = true) ts.
Proof. intro ts. cbn [no_unquote]. rewrite forallb_forall, Forall_forall. reflexivity. Qed.
Lemma filled_free : forall s t st p, heap_numbered st -> code_at st p t -> parsed t -> no_unquote t = true ->
  exists q st', filled s p st [q] st' /\ code_at st' q t /\ only_adds st st' /\ heap_numbered st' /\ (forall ts, t = CList ts -> exists i l, q = P i (OList l)).
Proof.
  intros s t. induction t as [v|ts IH] using code_tree_ind; intros st p HN C PA NU; inversion C as [i ?|i l ps ? EV CS]; subst.
  - exists (P i (OVar v)), st. split; [apply fi_atom|]. split; [apply ca_atom|]. split; [apply adds_refl|]. split; [exact HN|discriminate].
  - apply parsed_list in PA. apply no_unquote_list in NU.
    destruct (Nat.eq_dec (length ps) 2) as [L2|L2].
    + destruct ps as [|h [|e [|]]]; try discriminate L2. destruct (adds_list [h; e] st HN) as (A & H & V).
      exists (P (st_nid st) (OList (st_nloc st))), (with_nid (Pos.succ (st_nid st)) (more_vec [h; e] st)).
      split; [|split; [eapply ca_list; [exact V|eapply forall2_adds; eassumption]|split; [exact A|split; [exact H|eauto]]]].
      eapply fi_pair; [exact EV| |apply list_ptr_run]. inversion CS as [|? ? th te CH CE]; subst. inversion PA as [|? ? PH _]; subst. inversion NU as [|? ? NH _]; subst.
      inversion CH as [ih v|ih lh ps us EH CU]; subst; [|left; eauto]. right. cbn [parsed] in PH. cbn [no_unquote is_unquote] in NH.
      destruct PH as [(x & SY)|PH].
      * right. exists x. split; [exists ih, v; auto|]. rewrite (proj1 SY) in NH. unfold names_atom in NH. rewrite (proj2 SY) in NH.
        destruct (list_eq_dec ascii_dec ($"_unquote") x) as [|N1]; [discriminate|]. destruct (list_eq_dec ascii_dec ($"_unquotesplicing") x) as [|N2]; [discriminate|]. split; congruence.
      * left. exists ih, v. split; [reflexivity|]. destruct PH as [(x & A1 & _)|[(x & A1 & _)|[(x & A1 & _)|[(x & A1 & _)|A1]]]]; rewrite A1; discriminate.
    + assert (ALL : exists qs st1, fills s ps st qs st1 /\ codes_at st1 qs ts /\ only_adds st st1 /\ heap_numbered st1).
      { clear C EV L2 l i. revert st ps HN CS. induction ts as [|t ts IHt]; intros st ps HN CS; inversion CS as [|p ps' ? ? C CS']; subst.
        - exists [], st. split; [apply fs_nil|]. split; [apply cs_nil|]. split; [apply adds_refl|exact HN].
        - inversion IH as [|? ? IH1 IH2]; subst. inversion PA as [|? ? PA1 PA2]; subst. inversion NU as [|? ? NU1 NU2]; subst.
          destruct (IH1 st p HN C PA1 NU1) as (q & st1 & F1 & C1 & A1 & H1 & _).
          destruct (IHt IH2 PA2 NU2 st1 ps' H1) as (qs & st2 & F2 & C2 & A2 & H2); [eapply forall2_adds; eassumption|].
          exists (q :: qs), st2. split; [exact (fs_cons s p ps' st [q] st1 qs st2 F1 F2)|]. split; [apply cs_cons; [apply (proj1 (adds_code _ _ A2)), C1|exact C2]|]. split; [eapply adds_trans; eassumption|exact H2]. }
      destruct ALL as (qs & st1 & F1 & C1 & A1 & H1). destruct (adds_list qs st1 H1) as (A & H & V).
      exists (P (st_nid st1) (OList (st_nloc st1))), (with_nid (Pos.succ (st_nid st1)) (more_vec qs st1)).
      split; [eapply fi_list; [exact EV|exact L2|exact F1|apply list_ptr_run]|]. split; [eapply ca_list; [exact V|eapply forall2_adds; eassumption]|].
      split; [eapply adds_trans; eassumption|]. split; [exact H|eauto].
Qed.
Lemma quasi_identity : forall st s p tok x t, heap_numbered st -> form st p $"quasiquote" tok [x] -> standard st s $"quasiquote" -> plain x ->
  code_at st x t -> parsed t -> no_unquote t = true ->
  exists v st', evals p s st (Val (Some v)) st' /\ holds st' v t /\ only_adds (noted st s tok) st'.
Proof.
  intros st s p tok x t HN F S PL C PA NU.
  destruct (filled_free s t (noted st s tok) x (noted_heap _ _ _ HN) (proj1 (noted_code _ _ _) _ _ C) PA NU) as (q & st' & FI & CQ & A & _ & LI).
  assert (NS : not_spliced_at st x).
  { intros i l h e -> E (ih & v & -> & SY). inversion C as [|? ? ps ts EV CS]; subst. rewrite E in EV. injection EV as <-. inversion CS as [|? ? th ? CH CE]; subst. inversion CH; subst.
    apply no_unquote_list in NU. inversion NU as [|? ? NH _]; subst. cbn [no_unquote is_unquote] in NH. rewrite (proj1 SY) in NH. unfold names_atom in NH. rewrite (proj2 SY) in NH.
    destruct (list_eq_dec ascii_dec ($"_unquotesplicing") ($"_unquotesplicing")) as [_|N]; [|congruence]. rewrite orb_true_r in NH. discriminate NH. }
  inversion CQ as [j v|j l ps ts E CS]; subst.
  - exists v, st'. split; [eapply quasi_value; eauto; left; eauto|]. split; [reflexivity|exact A].
  - exists (mkv TList (OList l)), st'. split; [eapply quasi_value; eauto; right; eauto|]. split; [|exact A]. exists l, ps. split; [split; [reflexivity|split; [reflexivity|exact E]]|exact CS].
Qed.

(** ** Runs *)
Lemma capture_run : exists v st', runs false false $"(do (def b 10) (define-macro-eval m (a b) (list a b)) (str (m b 1)))" [] fresh (Val (Some v)) st' /\ is_str v $"(1 1)".
Proof. eexists. eexists. split; [apply (runs_by 60); [vm_compute; reflexivity|discriminate]|split; reflexivity]. Qed.
Lemma literal_run : exists v st', runs false false ($"(do (define-macro-eval m (x) (list " ++ [c_dquote] ++ $"x" ++ [c_dquote] ++ $" x)) (str (m 5)))") [] fresh (Val (Some v)) st' /\ is_str v $"(5 5)".
Proof. eexists. eexists. split; [apply (runs_by 60); [vm_compute; reflexivity|discriminate]|split; reflexivity]. Qed.
Lemma short_run : exists st', runs false false $"(do (define-macro-eval m (x y) (list x y)) (m 5))" [] fresh (Undef UBIndex) st'.
Proof. eexists. apply (runs_by 60); [vm_compute; reflexivity|discriminate]. Qed.
Lemma expand_atom_run : exists st', runs false false $"(do (define-macro-expand m (x) (+ 1 x)) (m 5))" [] fresh (Undef UBBadCast) st'.
Proof. eexists. apply (runs_by 60); [vm_compute; reflexivity|discriminate]. Qed.
Lemma nil_run : exists v st', runs false false $"(str '(1 nil))" [] fresh (Val (Some v)) st' /\ is_str v $"(1 ())".
Proof. eexists. eexists. split; [apply (runs_by 60); [vm_compute; reflexivity|discriminate]|split; reflexivity]. Qed.
Lemma pair_run : exists v st', runs false false $"(str (quasiquote (1 (_unquote (+ 1 2)))))" [] fresh (Val (Some v)) st' /\ is_str v $"(1 (_unquote (+ 1 2)))".
Proof. eexists. eexists. split; [apply (runs_by 60); [vm_compute; reflexivity|discriminate]|split; reflexivity]. Qed.
Lemma triple_run : exists v st', runs false false $"(str (quasiquote (1 2 (_unquote (+ 1 2)) (_unquotesplicing (list 4 5)))))" [] fresh (Val (Some v)) st' /\ is_str v $"(1 2 3 4 5)".
Proof. eexists. eexists. split; [apply (runs_by 60); [vm_compute; reflexivity|discriminate]|split; reflexivity]. Qed.
(** ** For the examples *)
Lemma code_heap : forall ls st n, heap_numbered st -> (st_nloc st <= n)%positive -> Forall (fun kv => (fst kv < n)%positive) ls -> heap_numbered (with_nloc n (with_code ls st)).
Proof.
  intros ls st n (H1 & H2) L F. split.
  - assert (G : forall m, (forall l es, PositiveMap.find l m = Some es -> (l < n)%positive) ->
      forall l es, PositiveMap.find l (fold_left (fun m kv => PositiveMap.add (fst kv) (snd kv) m) ls m) = Some es -> (l < n)%positive).
    { clear -F. induction F as [|(k & es0) ls K F IH]; intros m HM; [exact HM|]. cbn [fold_left fst snd]. apply IH. intros l es E. rewrite find_add in E. destruct (Pos.eqb_spec l k) as [->|N]; [exact K|exact (HM _ _ E)]. }
    intros l es E. apply (G (st_vecs st)) with (es := es); [|exact E]. intros l' es' E'. specialize (H1 _ _ E'). lia.
  - intros l d E. specialize (H2 _ _ E). cbn [st_nloc with_nloc]. lia.
Qed.
Lemma macro_heap : heap_numbered macro_st.
Proof.
  unfold macro_st. apply code_heap; [apply reachable_heap, reach_eval, reach_init|vm_compute; discriminate|].
  repeat (apply Forall_cons; [vm_compute; reflexivity|]). apply Forall_nil.
Qed.
Ltac see_code := repeat first [apply ca_atom | apply cs_nil | apply cs_cons | eapply ca_list; [vm_compute; reflexivity|]].
Ltac see_atom := first [left; eexists; split; reflexivity | right; left; eexists; split; reflexivity | right; right; left; eexists; split; reflexivity |
  right; right; right; left; eexists; split; reflexivity | right; right; right; right; left; eexists; split; reflexivity | right; right; right; right; right; reflexivity].
Ltac see_parsed := repeat first [apply Forall_nil | apply Forall_cons | exact I | see_atom | split].
Ltac see_valued := repeat (apply Forall_cons; [cbn [valued v_val]; repeat split; discriminate|]); apply Forall_nil.

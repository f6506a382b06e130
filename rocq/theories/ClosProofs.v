(** Calls of functions written in Lisp. *)
Require Import String Ascii List ZArith Bool Lia.
Require Import PArith FMapPositive.
From Verif Require Import Base CppString Num Token Value State Show ScopeOps Builtins Table Eval LispTop SpecRun SpecVal SpecList SpecText SpecForm FuelProofs
  BuiltinProofs Wf FrameProofs RunProofs TextProofs StrProofs NumProofs ErrProofs ListProofs FormProofs.
Import ListNotations.

(** ** Calling a function written in Lisp *)
Definition bind_all (names : list str) (acts : list ptr) (vs : list (str * ptr)) : list (str * ptr) :=
  fold_left (fun vs na => vars_set (fst na) (snd na) vs) (combine names acts) vs.
Lemma set_run : forall st c sc n p, scope_at st c = Some sc ->
  scope_set c n p st = (Val tt, with_scopes (PositiveMap.add c (set_vars (vars_set n p (s_vars sc)) sc) (st_scopes st)) st).
Proof. intros st c sc n p H. unfold scope_set, mod_scope, bind, reads. rewrite (get_at _ _ _ H). reflexivity. Qed.
Lemma mod_run : forall st c sc f, scope_at st c = Some sc -> mod_scope c f st = (Val tt, with_scopes (PositiveMap.add c (f sc) (st_scopes st)) st).
Proof. intros st c sc f H. unfold mod_scope, bind, reads. rewrite (get_at _ _ _ H). reflexivity. Qed.
Lemma with_scopes_twice : forall a b st, with_scopes a (with_scopes b st) = with_scopes a st. Proof. reflexivity. Qed.
Lemma bind_formals_run : forall fs names, Forall2 expr_sym fs names -> forall acts st c sc, (length names <= length acts)%nat -> scope_at st c = Some sc ->
  bind_formals fs acts c st = (Val tt, with_scopes (PositiveMap.add c (set_vars (bind_all names acts (s_vars sc)) sc) (st_scopes st)) st).
Proof.
  intros fs names H. induction H as [|f n fs names X _ IH]; intros acts st c sc L E.
  - cbn [bind_formals]. unfold ret, bind_all. cbn [combine fold_left]. replace (set_vars (s_vars sc) sc) with sc by (destruct sc; reflexivity).
    rewrite pm_add_same by exact E. destruct st; reflexivity.
  - destruct acts as [|a acts]; [cbn in L; lia|]. cbn [bind_formals]. unfold bind at 1, reads. rewrite (sym_text _ _ _ X). unfold bind. rewrite (set_run _ _ _ _ _ E).
    rewrite (IH acts _ c (set_vars (vars_set n a (s_vars sc)) sc)); [|cbn in L; lia|rewrite find_scope_add, Pos.eqb_refl; reflexivity].
    rewrite with_scopes_twice. cbn [st_scopes with_scopes]. rewrite pm_add_add. reflexivity.
Qed.
Lemma nil_ptrs_run : forall n st, exists fill k, nil_ptrs n st = (Val fill, with_nid k st) /\ length fill = n /\ Forall (fun p => exists i, p = P i (OVar vnil)) fill.
Proof.
  induction n as [|n IH]; intro st.
  - exists [], (st_nid st). repeat split; [|constructor]. cbn [nil_ptrs]. unfold ret. destruct st; reflexivity.
  - destruct (IH (with_nid (Pos.succ (st_nid st)) st)) as (fill & k & E & L & F). exists (P (st_nid st) (OVar vnil) :: fill), k.
    split; [|split; [cbn; congruence|constructor; [eauto|exact F]]]. cbn [nil_ptrs]. unfold bind, new_var_ptr, new_ptr. rewrite E. reflexivity.
Qed.
Lemma lookup_bind_other : forall names acts vs n, ~ In n names -> lookup n (bind_all names acts vs) = lookup n vs.
Proof.
  unfold bind_all. induction names as [|m names IH]; intros acts vs n N; [reflexivity|]. destruct acts as [|a acts]; [reflexivity|]. cbn [combine fold_left fst snd].
  rewrite IH by (intro; apply N; right; assumption). rewrite lookup_set. destruct (list_eq_dec ascii_dec n m) as [->|]; [|reflexivity]. exfalso. apply N. left. reflexivity.
Qed.
Lemma lookup_bind : forall names acts vs k n a, nth_error names k = Some n -> nth_error acts k = Some a -> ~ In n (skipn (S k) names) ->
  lookup n (bind_all names acts vs) = Some a.
Proof.
  induction names as [|m names IH]; intros acts vs k n a H1 H2 N; [destruct k; discriminate|]. destruct acts as [|b acts]; [destruct k; discriminate|].
  destruct k as [|k].
  - cbn in H1, H2. injection H1 as ->. injection H2 as ->. change (skipn 1 (n :: names)) with names in N.
    change (bind_all (n :: names) (a :: acts) vs) with (bind_all names acts (vars_set n a vs)). rewrite lookup_bind_other by exact N.
    rewrite lookup_set. destruct (list_eq_dec ascii_dec n n); [reflexivity|congruence].
  - change (bind_all (m :: names) (b :: acts) vs) with (bind_all names acts (vars_set m b vs)). apply (IH acts _ k); assumption.
Qed.
(** While a call is prepared only the new scope [c] and the link to it change. *)
Definition prepared (st : state) (s c : sid) (sc : scope) (w : state) (csc : scope) : Prop :=
  scope_at w c = Some csc /\ scope_at w s = Some (set_next (Some c) sc) /\ (forall u, u <> c -> u <> s -> scope_at w u = scope_at st u) /\
  (forall l es, vec_at st l = Some es -> vec_at w l = Some es) /\ st_dicts w = st_dicts st /\
  st_out w = st_out st /\ st_in w = st_in st /\ st_files w = st_files st /\ st_env w = st_env st /\
  st_nsid w = Pos.succ (st_nsid st) /\ heap_numbered w.
Lemma prep_mod : forall st s c sc w csc csc', s <> c -> prepared st s c sc w csc -> prepared st s c sc (with_scopes (PositiveMap.add c csc' (st_scopes w)) w) csc'.
Proof.
  intros st s c sc w csc csc' N (A & B & C & D). repeat (match goal with |- prepared _ _ _ _ _ _ => unfold prepared | |- _ /\ _ => split end); try apply D.
  - rewrite find_scope_add, Pos.eqb_refl. reflexivity.
  - rewrite find_scope_add. destruct (Pos.eqb_spec s c); [congruence|exact B].
  - intros u N1 N2. rewrite find_scope_add. destruct (Pos.eqb_spec u c); [congruence|]. apply C; assumption.
Qed.
Lemma prep_nid : forall st s c sc w csc k, prepared st s c sc w csc -> prepared st s c sc (with_nid k w) csc.
Proof. intros st s c sc w csc k H. exact H. Qed.
Definition more_vec (es : list ptr) (w : state) : state := with_nloc (Pos.succ (st_nloc w)) (with_vecs (PositiveMap.add (st_nloc w) es (st_vecs w)) w).
Lemma more_vec_at : forall es w, vec_at (more_vec es w) (st_nloc w) = Some es.
Proof. intros. unfold vec_at, more_vec. cbn [st_vecs with_nloc with_vecs]. rewrite find_add, Pos.eqb_refl. reflexivity. Qed.
Lemma more_vec_old : forall es w l x, heap_numbered w -> vec_at w l = Some x -> vec_at (more_vec es w) l = Some x.
Proof.
  intros es w l x [H _] E. unfold vec_at, more_vec. cbn [st_vecs with_nloc with_vecs]. rewrite find_add. destruct (Pos.eqb_spec l (st_nloc w)) as [->|N]; [|exact E].
  apply H in E. lia.
Qed.
Lemma more_vec_heap : forall es w, heap_numbered w -> heap_numbered (more_vec es w).
Proof.
  intros es w [H1 H2]. split; intros l x E; cbn [more_vec st_nloc with_nloc].
  - unfold vec_at, more_vec in E. cbn [st_vecs with_nloc with_vecs] in E. rewrite find_add in E. destruct (Pos.eqb_spec l (st_nloc w)) as [->|N]; [lia|]. specialize (H1 _ _ E). lia.
  - specialize (H2 _ _ E). lia.
Qed.
Lemma prep_vec : forall st s c sc w csc es, prepared st s c sc w csc -> prepared st s c sc (more_vec es w) csc.
Proof.
  intros st s c sc w csc es (A & B & C & D & E). repeat (match goal with |- prepared _ _ _ _ _ _ => unfold prepared | |- _ /\ _ => split end); try apply E; try assumption.
  - intros l x K. apply more_vec_old; [apply E|apply D, K].
  - apply more_vec_heap, E.
Qed.
Lemma list_ptr_run : forall es w, new_list_ptr es w = (Val (P (st_nid w) (OList (st_nloc w))), with_nid (Pos.succ (st_nid w)) (more_vec es w)).
Proof. reflexivity. Qed.
Lemma list_obj_run : forall es w, new_list_obj es w = (Val (OList (st_nloc w)), more_vec es w).
Proof. reflexivity. Qed.
Lemma lookup_nil : forall n, lookup n [] = None. Proof. reflexivity. Qed.
Ltac str_ne := let X := fresh in intro X; vm_compute in X; discriminate X.
Lemma closure_enters : forall st s sc ds name modname fp body more args names, scope_at st s = Some sc -> numbered st -> heap_numbered st -> scope_exists st (s_global sc) -> scope_exists st ds ->
  parameters st fp names ->
  exists st1 c, starts_call st st1 s c ds name names args /\ numbered st1 /\ heap_numbered st1 /\ c = st_nsid st /\ forall k, let R := run k in
    call_closure R name modname (fp :: body :: more) ds args s st =
    bind (try_catch (r_eval R body c) (fun e => match e with ELisp m _ => Some (throw (ELispBase m)) | ELispBase m => Some (throw (ELispBase m)) | _ => None end))
      (fun r => bind (pop_next s) (fun _ => ret r)) st1.
Proof.
  intros st s sc ds name modname fp body more args names H NU HN (gs & XG) (dsc & XD) (fs & XF & SY).
  set (c := st_nsid st). assert (FR : scope_at st c = None). { destruct (scope_at st c) as [x|] eqn:Q; [|reflexivity]. apply NU in Q. unfold c in Q. lia. }
  assert (NSC : s <> c) by congruence. assert (NDC : ds <> c) by congruence.
  set (f0 := fresh_scope name (s_global sc) (s_module gs) modname).
  (* creating and linking the scope *)
  set (wa := with_nsid (Pos.succ (st_nsid st)) (with_scopes (PositiveMap.add c f0 (st_scopes st)) st)).
  set (wb := with_scopes (PositiveMap.add s (set_next (Some c) sc) (st_scopes wa)) wa).
  set (wc := with_scopes (PositiveMap.add c (set_prev (Some s) f0) (st_scopes wb)) wb).
  assert (Sa : forall u, scope_at wa u = if Pos.eqb u c then Some f0 else scope_at st u).
  { intro u. unfold scope_at, wa. cbn [st_scopes with_nsid with_scopes]. apply find_add. }
  assert (Sb : forall u, scope_at wb u = if Pos.eqb u s then Some (set_next (Some c) sc) else scope_at wa u).
  { intro u. unfold wb. apply find_scope_add. }
  assert (Pc : prepared st s c sc wc (set_prev (Some s) f0)).
  { apply (prep_mod st s c sc wb f0); [exact NSC|]. repeat (match goal with |- prepared _ _ _ _ _ _ => unfold prepared | |- _ /\ _ => split end); try reflexivity; try (intros; assumption).
    - rewrite Sb. destruct (Pos.eqb_spec c s); [congruence|]. rewrite Sa, Pos.eqb_refl. reflexivity.
    - rewrite Sb, Pos.eqb_refl. reflexivity.
    - intros u N1 N2. rewrite Sb. destruct (Pos.eqb_spec u s); [congruence|]. rewrite Sa. destruct (Pos.eqb_spec u c); [congruence|reflexivity]. }
  destruct (nil_ptrs_run (length fs - length args) wc) as (fill & k & FI & LF & NF).
  assert (LN : length fs = length names) by (clear -SY; induction SY; cbn; congruence).
  set (acts := args ++ fill). set (wd := with_nid k wc). set (vs := bind_all names acts []). set (f1 := set_vars vs (set_prev (Some s) f0)).
  set (we := with_scopes (PositiveMap.add c f1 (st_scopes wd)) wd).
  assert (Pe : prepared st s c sc we f1) by (apply (prep_mod st s c sc wd (set_prev (Some s) f0)); [exact NSC|apply prep_nid, Pc]).
  set (ap := P (st_nid we) (OList (st_nloc we))). set (wf := with_nid (Pos.succ (st_nid we)) (more_vec acts we)).
  set (vs2 := vars_set k_args ap vs). set (f2 := set_vars vs2 f1).
  set (wg := with_scopes (PositiveMap.add c f2 (st_scopes wf)) wf).
  assert (Pg : prepared st s c sc wg f2) by (apply (prep_mod st s c sc wf f1); [exact NSC|apply prep_nid, prep_vec, Pe]).
  assert (Ag : vec_at wg (st_nloc we) = Some acts) by (exact (more_vec_at acts we)).
  (* surplus arguments *)
  assert (XS : exists wh vs3, (if (length fs <? length acts)%nat then
       bind (new_list_obj (skipn (length fs) acts)) (fun xo => bind (new_var_ptr (mkv TList xo)) (fun xp => scope_set c k_addargs xp)) else ret tt) wg = (Val tt, wh) /\
       prepared st s c sc wh (set_vars vs3 f2) /\ vec_at wh (st_nloc we) = Some acts /\
       (forall n, n <> k_addargs -> lookup n vs3 = lookup n vs2) /\
       ((length names < length args)%nat -> exists i v l, lookup k_addargs vs3 = Some (P i (OVar v)) /\ is_list_at wh v l (skipn (length names) args))).
  { destruct (Nat.ltb_spec (length fs) (length acts)) as [LT|GE].
    - unfold bind. rewrite list_obj_run. unfold new_var_ptr, new_ptr. set (x := skipn (length fs) acts). set (wx := more_vec x wg).
      set (xp := P (st_nid wx) (OVar (mkv TList (OList (st_nloc wg))))). exists (with_scopes (PositiveMap.add c (set_vars (vars_set k_addargs xp vs2) f2) (st_scopes wx)) (with_nid (Pos.succ (st_nid wx)) wx)), (vars_set k_addargs xp vs2).
      split. { rewrite (set_run _ c f2); [reflexivity|]. apply (prep_nid _ _ _ _ _ _ _ (prep_vec _ _ _ _ _ _ x Pg)). }
      split. { apply (prep_mod st s c sc (with_nid (Pos.succ (st_nid wx)) wx) f2); [exact NSC|apply prep_nid, prep_vec, Pg]. }
      split. { exact (more_vec_old x wg _ _ ltac:(apply Pg) Ag). }
      split. { intros n N. rewrite lookup_set. destruct (list_eq_dec ascii_dec n k_addargs); [congruence|reflexivity]. }
      intro LA. exists (st_nid wx), (mkv TList (OList (st_nloc wg))), (st_nloc wg). split. { rewrite lookup_set. destruct (list_eq_dec ascii_dec k_addargs k_addargs); [reflexivity|congruence]. }
      split; [reflexivity|]. split; [reflexivity|]. assert (fill = []) by (apply length_zero_iff_nil; lia).
      replace (skipn (length names) args) with x; [exact (more_vec_at x wg)|]. unfold x, acts. rewrite LN. subst fill. rewrite app_nil_r. reflexivity.
    - exists wg, vs2. split; [reflexivity|]. split. { replace (set_vars vs2 f2) with f2 by reflexivity. exact Pg. } split; [exact Ag|]. split; [reflexivity|].
      intro LA. exfalso. unfold acts in GE. rewrite app_length in GE. lia. }
  destruct XS as (wh & vs3 & XR & Ph & Ah & OV & SV). set (f3 := set_vars vs3 f2) in *.
  set (wi := with_scopes (PositiveMap.add c (set_closure (Some ds) f3) (st_scopes wh)) wh).
  assert (Pi : prepared st s c sc wi (set_closure (Some ds) f3)) by (apply (prep_mod st s c sc wh f3); [exact NSC|exact Ph]).
  assert (Di : exists dsc', scope_at wi ds = Some dsc' /\ s_needlv dsc' = s_needlv dsc).
  { destruct Pi as (_ & B & C & _). destruct (Pos.eq_dec ds s) as [->|NDS]; [eexists; split; [exact B|]; assert (dsc = sc) by congruence; subst dsc; reflexivity|]. exists dsc. rewrite C by assumption. split; [exact XD|reflexivity]. }
  destruct Di as (dsc' & Di & NLV).
  set (f4 := set_needlv (s_needlv dsc') (set_closure (Some ds) f3)).
  set (wj := with_scopes (PositiveMap.add c f4 (st_scopes wi)) wi).
  assert (Pj : prepared st s c sc wj f4) by (apply (prep_mod st s c sc wi (set_closure (Some ds) f3)); [exact NSC|exact Pi]).
  exists wj, c. split; [|split; [|split; [apply Pj|split; [reflexivity|]]]].
  - assert (VA : forall n, var_at wj c n = lookup n vs3). { intro n. unfold var_at. destruct Pj as (-> & _). reflexivity. }
    destruct Pj as (A & B & C & D & E1 & E2 & E3 & E4 & E5 & E6 & E7). split; [exact FR|]. split; [|repeat split; assumption].
    exists sc, f4, fill. repeat match goal with |- _ /\ _ => split end; try reflexivity; try assumption.
    + intros d2 XD2. assert (d2 = dsc) by congruence. subst d2. exact NLV.
    + lia.
    + intros j n a N1 N2 N3 N4 N5. rewrite VA, OV by exact N5. unfold vs2. rewrite lookup_set. destruct (list_eq_dec ascii_dec n k_args) as [Q|_]; [destruct (N4 Q)|].
      unfold vs. eapply lookup_bind; eassumption.
    + exists (st_nid we), (st_nloc we). split; [|exact Ah]. rewrite VA, OV by str_ne. unfold vs2. rewrite lookup_set.
      destruct (list_eq_dec ascii_dec $"###args###" k_args) as [_|N]; [reflexivity|exfalso; apply N; reflexivity].
    + intro LA. destruct (SV LA) as (i & v & l & V1 & V2). exists i, v, l. split; [rewrite VA; exact V1|exact V2].
    + intros n N1 N2 N3. rewrite VA, OV by exact N3. unfold vs2. rewrite lookup_set. destruct (list_eq_dec ascii_dec n k_args) as [Q|_]; [destruct (N2 Q)|].
      unfold vs. rewrite lookup_bind_other by exact N1. reflexivity.
  - destruct Pj as (A & B & C & D & E1 & E2 & E3 & E4 & E5 & E6 & E7). intros u x E. rewrite E6.
    destruct (Pos.eq_dec u c) as [->|N1]; [unfold c; lia|]. destruct (Pos.eq_dec u s) as [->|N2]; [specialize (NU _ _ H); lia|].
    rewrite C in E by assumption. specialize (NU _ _ E). lia.
  - intros kk R. unfold call_closure. unfold bind at 1, global_of, bind at 1, reads at 1. rewrite (get_at _ _ _ H). unfold ret at 1.
    unfold bind at 1, new_scope, bind at 1, reads at 1. rewrite (get_at _ _ _ XG). unfold alloc_scope. fold f0 c wa.
    unfold bind at 1, push_next, bind at 1. rewrite (mod_run wa s sc) by (rewrite Sa; destruct (Pos.eqb_spec s c); [congruence|exact H]). fold wb.
    rewrite (mod_run wb c f0) by (rewrite Sb; destruct (Pos.eqb_spec c s); [congruence|]; rewrite Sa, Pos.eqb_refl; reflexivity). fold wc.
    unfold bind at 1, arg at 1. cbn [nth_error]. unfold ret at 1.
    assert (FV : exists i o, fp = P i o /\ match o with OVar v => reads (list_value v) | _ => reads (get_expression fp) end wc = (Val fs, wc)).
    { destruct XF as [(i & l & -> & V)|(i & v & l & -> & T & L & V)]; do 2 eexists; (split; [reflexivity|]); unfold reads; f_equal.
      - unfold get_expression. cbn [deref obind]. unfold get_vec. unfold vec_at in V. change (st_vecs wc) with (st_vecs st). rewrite V. reflexivity.
      - apply (list_value_list wc v l fs). repeat split; assumption. }
    destruct FV as (i & o & -> & FV). unfold bind at 1, lift at 1. cbn [deref]. unfold bind at 1.
    assert (FV' : match o with OVar v => reads (list_value v) | _ => reads (get_expression (P i o)) end wc = (Val fs, wc)) by exact FV. rewrite FV'.
    unfold bind at 1. rewrite FI. fold wd acts. unfold bind at 1. rewrite (bind_formals_run fs names SY acts wd c (set_prev (Some s) f0)); [|unfold acts; rewrite app_length; lia|apply Pc].
    fold vs. change (bind_all names acts (s_vars (set_prev (Some s) f0))) with vs. fold f1. fold we. unfold bind at 1. rewrite list_ptr_run. fold ap wf.
    unfold bind at 1. rewrite (set_run wf c f1) by apply (prep_nid _ _ _ _ _ _ _ (prep_vec _ _ _ _ _ _ acts Pe)).
    change (vars_set k_args ap (s_vars f1)) with vs2. fold f2. fold wg. unfold bind at 1. unfold bind in XR at 1. 
    match goal with |- (match ?X wg with _ => _ end) = _ => replace (X wg) with (Val tt, wh) by (symmetry; exact XR) end.
    unfold bind at 1. rewrite (mod_run wh c f3) by apply Ph. fold wi. unfold bind at 1, reads at 1. rewrite (get_at _ _ _ Di).
    unfold bind at 1. rewrite (mod_run wi c (set_closure (Some ds) f3)) by apply Pi. fold f4. fold wj. unfold bind at 1, arg at 1. cbn [nth_error]. unfold ret at 1.
    unfold R. unfold bind, try_catch. destruct (r_eval (run kk) body c wj) as [[| [] | | |] ?]; try reflexivity; rewrite dbg_error; reflexivity.
Qed.
Lemma mono_closure : forall R name modname fargs ds args s, call R (MkFn (CClosure name modname fargs ds) [] [] false false false []) args s = call_closure R name modname fargs ds args s.
Proof. reflexivity. Qed.
Lemma pop_unlinks : forall st s c sc csc, s <> c -> scope_at st s = Some sc -> s_next sc = Some c -> scope_at st c = Some csc ->
  exists st', pop_next s st = (Val tt, st') /\ unlinked st st' s c.
Proof.
  intros st s c sc csc N H X C. unfold pop_next, bind at 1, reads. rewrite (get_at _ _ _ H), X. unfold bind. rewrite (mod_run _ _ _ _ C).
  rewrite (mod_run _ s sc) by (rewrite find_scope_add; destruct (Pos.eqb_spec s c); [congruence|exact H]).
  eexists. split; [reflexivity|]. exists sc, csc. repeat split; assumption.
Qed.
Lemma call_S : forall f args s st o st', calls f args s st o st' -> exists n, r_call (run (S n)) f args s st = (o, st') /\ o <> NoFuel.
Proof. intros f args s st o st' ([|n] & H & N); [cbn in H; unfold no_fuel, lift in H; congruence|]. exists n. split; assumption. Qed.
Lemma closure_call : forall f st s sc ds name modname fp body more args names, fn_code f = CClosure name modname (fp :: body :: more) ds ->
  scope_at st s = Some sc -> numbered st -> heap_numbered st -> scope_exists st (s_global sc) -> scope_exists st ds -> parameters st fp names ->
  exists st1 c, starts_call st st1 s c ds name names args /\
    (forall r st2, evals body c st1 (Val r) st2 -> exists st', unlinked st2 st' s c /\ calls f args s st (Val r) st') /\
    (forall o st2, evals body c st1 o st2 -> (forall r, o <> Val r) -> calls f args s st (handed_up o) st2) /\
    (forall o st', calls f args s st o st' -> exists o2 st2, evals body c st1 o2 st2).
Proof.
  intros f st s sc ds name modname fp body more args names C H NU HN XG XD PA.
  destruct (closure_enters st s sc ds name modname fp body more args names H NU HN XG XD PA) as (st1 & c & SC & NU1 & HN1 & EC & R).
  assert (E : forall n, r_call (run (S n)) f args s st = call_closure (run n) name modname (fp :: body :: more) ds args s st).
  { intro n. cbn [run step r_call]. unfold call. rewrite C. reflexivity. }
  exists st1, c. split; [exact SC|]. destruct SC as (FR & (sc' & csc & fill & H' & HS & HC & REST) & _). assert (NSC : s <> c) by congruence.
  split; [|split].
  - intros r st2 EV. destruct (frame_evals _ _ _ _ _ NU1 EV _ _ HS) as (sc2 & S2 & _ & _ & _ & _ & V & _). destruct (V NSC) as (vv & ->).
    destruct (frame_evals _ _ _ _ _ NU1 EV _ _ HC) as (csc2 & C2 & _). destruct (pop_unlinks st2 s c _ _ NSC S2 eq_refl C2) as (st' & P1 & P2).
    exists st'. split; [exact P2|]. destruct EV as (n & EV & N). exists (S n). split; [|discriminate]. rewrite E, R. unfold bind at 1, try_catch. rewrite EV. unfold bind. rewrite P1. reflexivity.
  - intros o st2 (n & EV & N) NV. exists (S n). rewrite E, R. unfold bind at 1, try_catch. rewrite EV.
    destruct o as [r|[m i|m| | |]|u|w|]; cbn [handed_up]; try (split; [reflexivity|discriminate]); [exfalso; eapply NV; reflexivity|congruence].
  - intros o st' K. apply call_S in K. destruct K as (n & K & NF). rewrite E, R in K. unfold bind at 1, try_catch in K.
    destruct (r_eval (run n) body c st1) as [o2 st2] eqn:EV. exists o2, st2. exists n. split; [exact EV|]. intros ->. injection K as <- _. congruence.
Qed.
(** What the caller's scope looks like afterwards. *)
Lemma closure_keeps_caller : forall f st s sc ds name modname fp body more args names r st', fn_code f = CClosure name modname (fp :: body :: more) ds ->
  scope_at st s = Some sc -> numbered st -> heap_numbered st -> scope_exists st (s_global sc) -> scope_exists st ds -> parameters st fp names ->
  calls f args s st (Val r) st' -> exists v, scope_at st' s = Some (set_next None (set_vars v sc)).
Proof.
  intros f st s sc ds name modname fp body more args names r st' C H NU HN XG XD PA K.
  destruct (closure_enters st s sc ds name modname fp body more args names H NU HN XG XD PA) as (st1 & c & SC & NU1 & HN1 & EC & R).
  destruct SC as (FR & (sc' & csc & fill & H' & HS & HC & REST) & _). assert (NSC : s <> c) by congruence. assert (sc' = sc) by congruence. subst sc'.
  apply call_S in K. destruct K as (n & K & NF). cbn [run step r_call] in K. unfold call in K. rewrite C, R in K. unfold bind at 1, try_catch in K.
  destruct (r_eval (run n) body c st1) as [o2 st2] eqn:EV. destruct o2 as [r2|[m i|m| | |]|u|w|]; try discriminate.
  assert (EV' : evals body c st1 (Val r2) st2) by (exists n; split; [exact EV|discriminate]).
  destruct (frame_evals _ _ _ _ _ NU1 EV' _ _ HS) as (sc2 & S2 & _ & _ & _ & _ & V & _). destruct (V NSC) as (vv & ->).
  destruct (frame_evals _ _ _ _ _ NU1 EV' _ _ HC) as (csc2 & C2 & _). destruct (pop_unlinks st2 s c _ _ NSC S2 eq_refl C2) as (st3 & P1 & (a & b & A & B & ->)).
  unfold bind in K. rewrite P1 in K. unfold ret in K. injection K as _ <-. exists vv.
  unfold scope_at. cbn [st_scopes with_scopes]. rewrite find_add, Pos.eqb_refl. assert (a = set_vars vv (set_next (Some c) sc)) by congruence. subst a. reflexivity.
Qed.
Lemma return_sets : forall st s sc i v rest, scope_at st s = Some sc ->
  builtin_call $"return" (P i (OVar v) :: rest) s st (Val (Some v)) (with_scopes (PositiveMap.add s (set_inret true sc) (st_scopes st)) st).
Proof.
  intros st s sc i v rest H. apply (builtin_calls 0 _ BReturn); [reflexivity| |discriminate]. cbn [call_builtin]. unfold b_return, bind at 1. rewrite (mod_run _ _ _ _ H). reflexivity.
Qed.

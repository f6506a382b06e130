(** Commands typed at the debugger's prompt, and when a program stops there. *)
Require Import String Ascii List ZArith Bool Lia.
Require Import PArith FMapPositive.
From Verif Require Import Base CppString Num Token Tokenizer Parser Value State Show ScopeOps Builtins Table Eval LispTop Debugger
  SpecRun SpecVal SpecText SpecLex SpecNum SpecForm SpecDebug ClassifyProofs FuelProofs RelProofs TextProofs BuiltinProofs StrProofs NumProofs RunProofs ErrProofs DictProofs FormProofs DebugProofs.
Import ListNotations.

(** ** One command *)
Lemma mono_prompt : forall main g top cur script, monotone (fun n => dbg_loop (drun n) n main g top cur script).
Proof. intros main g top cur script n m L. apply le_dbg_loop; [apply le_drun, L|exact L]. Qed.
Lemma trim_typed : forall line w, trimmed line w -> forallb is_7bit line = true -> Trim line = Val w.
Proof. intros line w T B. destruct (Trim_spec line B) as (r & E & T'). rewrite E. f_equal. eapply trimmed_unique; eassumption. Qed.

(** The rest of the loop after reading [w]. *)
Definition obey (R : recs) (k : nat) (main : bool) (g top cur : sid) (script w : str) : M bool :=
  let again := dbg_loop R k main g top cur script in
  match command_of w with
    | CExit => if main then ret false else throw EStopDebugger
    | CHelp => write_lines help_lines ;; again
    | CAbout => write_lines about_lines ;; again
    | CVersion => write_lines version_lines ;; again
    | CFuncs => dump_functions k g ;; again
    | CBuiltins => dump_builtin_functions g ;; again
    | CMacros => dump_meta k_macros g ;; again
    | CModules => dump_meta k_modules g ;; again
    | CDoc => cmd_doc R $"doc" w g cur ;; again
    | CSearchDoc => cmd_doc R $"searchdoc" w g cur ;; again
    | CClear => cmd_clear k w ;; again
    | CStack =>
      let! n := depth_of cur in
      let! d := reads (dump_stack (Some n) top) in
      write_line d ;; again
    | CCode => cmd_code script cur ;; again
    | CShow => cmd_list ;; again
    | CBreakpoint =>
      let! sc := reads (get_scope cur) in
      cmd_break w (s_module sc) ;; again
    | CUp =>
      let! sc := reads (get_scope cur) in
      dbg_loop R k main g top (match s_next sc with Some n => n | None => cur end) script
    | CDown =>
      let! sc := reads (get_scope cur) in
      dbg_loop R k main g top (match s_prev sc with Some n => n | None => cur end) script
    | CStep => set_dbg (set_mode StopAlways) ;; ret false
    | COver => let! n := depth_of cur in set_dbg (set_mode (StopOver n)) ;; ret false
    | COut => let! n := depth_of cur in set_dbg (set_mode (StopOut n)) ;; ret false
    | CRun => set_dbg (set_stop false) ;; ret false
    | CLocals => let! sc := reads (get_scope cur) in dump_vars (s_vars sc) ;; again
    | CGlobals => let! sc := reads (get_scope g) in dump_vars (s_vars sc) ;; again
    | CRestart => ret true
    | CEval =>
      let! ok := cmd_eval R w cur in
      dbg_loop R k main g top cur (if ok then script ++ w ++ [c_nl] else script)
  end.
Lemma loop_obeys : forall R k main g top cur script st w rest, typed st w rest ->
  dbg_loop R (S k) main g top cur script st = obey R k main g top cur script w (answered st rest).
Proof.
  intros R k main g top cur script st w rest (line & EI & T & B). cbn [dbg_loop]. unfold bind at 1, write_out at 1. unfold bind at 1, read_line at 1.
  assert (EI' : st_in (with_out (st_out st ++ dbg_prompt) st) = line :: rest) by exact EI. rewrite EI'.
  unfold bind at 1, lift at 1. rewrite (trim_typed line w T B). reflexivity.
Qed.
(** The command does its work at once, then the dialogue goes on. *)
Lemma prompt_goes_on_from : forall k0 main g top cur cur' script script' st st1,
  (forall n k, (k0 <= k)%nat -> (k0 <= n)%nat -> dbg_loop (drun n) (S k) main g top cur script st = dbg_loop (drun n) k main g top cur' script' st1) ->
  forall o st', at_prompt main g top cur script st o st' <-> at_prompt main g top cur' script' st1 o st'.
Proof.
  intros k0 main g top cur cur' script script' st st1 H o st'. split; intros (n & E & N).
  - assert (E' : dbg_loop (drun (S (n + k0))) (S (n + k0)) main g top cur script st = (o, st')).
    { rewrite <- E. apply (mono_prompt main g top cur script n (S (n + k0)) ltac:(lia)). rewrite E. exact N. }
    rewrite H in E' by lia. exists (S (n + k0)). split; [|exact N]. rewrite <- E'.
    apply (le_dbg_loop (drun (S (n + k0))) (drun (S (n + k0))) (le_recs_refl _) (n + k0) (S (n + k0))); [lia|]. rewrite E'. exact N.
  - exists (S (n + k0)). split; [|exact N]. rewrite H by lia. rewrite <- E.
    apply (le_dbg_loop (drun n) (drun (S (n + k0))) (le_drun n (S (n + k0)) ltac:(lia)) n (n + k0)); [lia|]. rewrite E. exact N.
Qed.
Lemma prompt_goes_on : forall main g top cur cur' script script' st st1,
  (forall n k, (1 <= k)%nat -> dbg_loop (drun n) (S k) main g top cur script st = dbg_loop (drun n) k main g top cur' script' st1) ->
  forall o st', at_prompt main g top cur script st o st' <-> at_prompt main g top cur' script' st1 o st'.
Proof. intros main g top cur cur' script script' st st1 H. apply (prompt_goes_on_from 1). intros n k L _. apply H, L. Qed.
Lemma prompt_ends : forall main g top cur script st r st1,
  (forall n k, (1 <= k)%nat -> dbg_loop (drun n) (S k) main g top cur script st = (r, st1)) -> r <> NoFuel ->
  forall o st', at_prompt main g top cur script st o st' <-> o = r /\ st' = st1.
Proof.
  intros main g top cur script st r st1 H NR o st'. split.
  - intros (n & E & N). assert (E' : dbg_loop (drun (S (S n))) (S (S n)) main g top cur script st = (o, st')).
    { rewrite <- E. apply (mono_prompt main g top cur script n (S (S n)) ltac:(lia)). rewrite E. exact N. }
    rewrite H in E' by lia. injection E' as <- <-. auto.
  - intros (-> & ->). exists 2%nat. split; [apply H; lia|exact NR].
Qed.

(** ** Stepping *)
Lemma depth_stack : forall st s d, depth_at st s d -> forall n, (Pos.to_nat s <= n)%nat -> exists scs, stack_of n s st = Val scs /\ Z.of_nat (length scs) = d.
Proof.
  intros st s d H. induction H as [s sc E P|s sc p d E P L H IH]; intros n LN; (destruct n as [|n]; [lia|]); cbn [stack_of]; unfold get_scope; unfold scope_at in E; rewrite E; cbn [obind]; rewrite P.
  - exists [sc]. split; reflexivity.
  - destruct (IH n ltac:(lia)) as (scs & ES & EL). rewrite ES. cbn [obind]. exists (sc :: scs). split; [reflexivity|]. cbn [length]. lia.
Qed.
Lemma depth_val : forall st s d, depth_at st s d -> depth_of s st = (Val d, st).
Proof.
  intros st s d H. destruct (depth_stack st s d H (Pos.to_nat s) ltac:(lia)) as (scs & E & L). unfold depth_of, bind, reads, call_stack. rewrite E, L. reflexivity.
Qed.
Lemma depth_same : forall st st' s d, st_scopes st' = st_scopes st -> depth_at st s d -> depth_at st' s d.
Proof.
  intros st st' s d E H. induction H as [s sc ES P|s sc p d ES P L H IH].
  - eapply depth_one; [unfold scope_at; rewrite E; exact ES|exact P].
  - eapply depth_more; [unfold scope_at; rewrite E; exact ES|exact P|exact L|exact IH].
Qed.
Lemma depth_pos : forall st s d, depth_at st s d -> (1 <= d)%Z.
Proof. intros st s d H. induction H; lia. Qed.
Lemma step_commands : forall main g top cur script st w rest n b m, typed st w rest -> depth_at st cur n -> stepping n (d_mode (st_dbg st)) w b m ->
  forall o st', at_prompt main g top cur script st o st' <-> o = Val false /\ st' = stop_set b m (answered st rest).
Proof.
  intros main g top cur script st w rest n b m T D S. apply prompt_ends; [|discriminate]. intros k j _. rewrite (loop_obeys _ _ _ _ _ _ _ _ _ _ T).
  assert (D' := depth_val _ _ _ (depth_same st (answered st rest) cur n eq_refl D)).
  inversion S as [w' I|w' I|w' I|w' I]; subst; repeat destruct I as [<-|I]; try contradiction; unfold obey; match goal with |- context [command_of ?x] => let v := eval vm_compute in (command_of x) in change (command_of x) with v end; cbv iota;
    try (unfold bind at 1; rewrite D'); reflexivity.
Qed.
Lemma exit_command : forall main g top cur script st w rest, typed st w rest -> In w [$"exit"; $"quit"; $"q"; []] ->
  forall o st', at_prompt main g top cur script st o st' <-> o = (if main then Val false else Throw EStopDebugger) /\ st' = answered st rest.
Proof.
  intros main g top cur script st w rest T I. apply prompt_ends; [|destruct main; discriminate]. intros k j _. rewrite (loop_obeys _ _ _ _ _ _ _ _ _ _ T).
  repeat destruct I as [<-|I]; try contradiction; destruct main; reflexivity.
Qed.
Lemma end_of_input : forall main g top cur script st, st_in st = [] ->
  forall o st', at_prompt main g top cur script st o st' <-> o = (if main then Val false else Throw EStopDebugger) /\ st' = wrote prompt st.
Proof.
  intros main g top cur script st E. apply prompt_ends; [|destruct main; discriminate]. intros k j _. cbn [dbg_loop]. unfold bind at 1, write_out at 1. unfold bind at 1, read_line at 1.
  assert (E' : st_in (with_out (st_out st ++ dbg_prompt) st) = []) by exact E. rewrite E'. destruct main; reflexivity.
Qed.
Lemma restart_command : forall main g top cur script st rest, typed st $"restart" rest ->
  forall o st', at_prompt main g top cur script st o st' <-> o = Val true /\ st' = answered st rest.
Proof. intros main g top cur script st rest T. apply prompt_ends; [|discriminate]. intros k j _. rewrite (loop_obeys _ _ _ _ _ _ _ _ _ _ T). reflexivity. Qed.
Lemma move_commands : forall main g top cur script st w rest sc, typed st w rest -> scope_at st cur = Some sc ->
  (In w [$"up"; $"u"] -> forall o st', at_prompt main g top cur script st o st' <-> at_prompt main g top (match s_next sc with Some n => n | None => cur end) script (answered st rest) o st') /\
  (In w [$"down"; $"d"] -> forall o st', at_prompt main g top cur script st o st' <-> at_prompt main g top (match s_prev sc with Some n => n | None => cur end) script (answered st rest) o st').
Proof.
  intros main g top cur script st w rest sc T E.
  assert (G : get_scope cur (answered st rest) = Val sc) by (unfold get_scope, scope_at in *; cbn [st_scopes answered with_in with_out]; rewrite E; reflexivity).
  split; intro I; apply prompt_goes_on; intros n k _; rewrite (loop_obeys _ _ _ _ _ _ _ _ _ _ T); repeat destruct I as [<-|I]; try contradiction;
    unfold obey; match goal with |- context [command_of ?x] => let v := eval vm_compute in (command_of x) in change (command_of x) with v end; cbv iota;
    unfold bind at 1, reads at 1; rewrite G; reflexivity.
Qed.

(** ** Breakpoints *)
Lemma same_module_spec : forall m1 m2, same_module m1 m2 = true <-> m1 = [] \/ m2 = [] \/ m1 = m2.
Proof.
  intros [|a m1] [|b m2]; cbn [same_module]; split; intro H; auto; try (destruct H as [H|[H|H]]; try discriminate; try (rewrite H; apply str_eqb_refl)).
  right. right. apply str_eqb_eq, H.
Qed.
Lemma bp_at_spec : forall l m b, bp_at l m b = true <-> covers b l m.
Proof.
  intros l m b. unfold bp_at, covers. rewrite andb_true_iff, same_module_spec, Z.eqb_eq. intuition.
Qed.
Lemma find_covering : forall bps l m, match List.find (bp_at l m) bps with Some b => first_covering bps l m b | None => none_covering bps l m end.
Proof.
  intros bps l m. induction bps as [|b bps IH]; [constructor|]. cbn [List.find]. destruct (bp_at l m b) eqn:E.
  - exists [], bps. split; [reflexivity|]. split; [apply bp_at_spec, E|constructor].
  - assert (N : ~ covers b l m) by (rewrite <- bp_at_spec, E; discriminate). destruct (List.find (bp_at l m) bps) as [c|].
    + destruct IH as (l1 & l2 & -> & C & F). exists (b :: l1), l2. split; [reflexivity|]. split; [exact C|]. constructor; assumption.
    + constructor; assumption.
Qed.
Lemma find_none : forall bps l m, none_covering bps l m -> List.find (bp_at l m) bps = None.
Proof.
  intros bps l m H. induction H as [|b bps N H IH]; [reflexivity|]. cbn [List.find]. destruct (bp_at l m b) eqn:E; [|exact IH]. apply bp_at_spec in E. contradiction.
Qed.
Lemma find_first : forall bps l m b, first_covering bps l m b -> List.find (bp_at l m) bps = Some b.
Proof.
  intros bps l m b (l1 & l2 & -> & C & F). induction F as [|c l1 N F IH]; cbn [app List.find].
  - apply bp_at_spec in C. rewrite C. reflexivity.
  - destruct (bp_at l m c) eqn:E; [apply bp_at_spec in E; contradiction|exact IH].
Qed.
Lemma place_first : forall bps l m b, distinct bps -> Forall (fun c => bp_module c <> []) bps -> m <> [] -> In b bps -> place b = (m, l) -> first_covering bps l m b.
Proof.
  intros bps l m b D F NM I P. apply in_split in I. destruct I as (l1 & l2 & ->). exists l1, l2. split; [reflexivity|]. unfold place in P. injection P as PM PL.
  split; [split; [exact PL|auto]|]. unfold distinct in D. rewrite map_app in D. cbn [map] in D. apply NoDup_remove_2 in D. rewrite in_app_iff in D.
  apply Forall_forall. intros c IC (CL & CM). apply D. left. replace (place b) with (place c); [apply in_map, IC|]. unfold place.
  rewrite Forall_forall in F. assert (NC : bp_module c <> []) by (apply F, in_app_iff; left; exact IC). destruct CM as [CM|[CM|CM]]; try contradiction. rewrite CM, CL, PM, PL. reflexivity.
Qed.
Lemma place_none : forall bps l m, Forall (fun c => bp_module c <> []) bps -> m <> [] -> ~ In (m, l) (map place bps) -> none_covering bps l m.
Proof.
  intros bps l m F NM N. apply Forall_forall. intros c IC (CL & CM). apply N. rewrite Forall_forall in F. assert (NC := F c IC).
  destruct CM as [CM|[CM|CM]]; try contradiction. apply in_map_iff. exists c. unfold place. split; [rewrite CM, CL; reflexivity|exact IC].
Qed.

(** ** Visits *)
Lemma mono_visit : forall h s, monotone (fun n => r_dbg (drun n) (EvVisit h s)).
Proof. intros h s n m L. apply lr_dbg, le_drun, L. Qed.
Lemma visit_is : forall h s st o st', visit h s st o st' <-> ends_with (fun n => debugger (drun n) n (EvVisit h s)) st o st'.
Proof.
  intros h s st o st'. split; intros (n & E & N).
  - destruct n as [|n]; [exfalso; apply N; injection E as E _; symmetry; exact E|]. exists n. split; [exact E|exact N].
  - exists (S n). split; [exact E|exact N].
Qed.
Lemma visit_line : forall R k h s name t st, statement h name t ->
  debugger R k (EvVisit h s) st = (let! b := needs_break R (tk_line t) s in if b then announce h s ;; stop_loop R k s else ret tt) st.
Proof.
  intros R k h s name t st (i & v & -> & _ & VT & B). cbn [debugger]. unfold bind at 1, lift at 1. cbn [vref vref_obj]. rewrite VT. unfold to_size. rewrite Z.mod_small by lia. reflexivity.
Qed.
Lemma step_test : forall d s n st, depth_at st s n ->
  (step_wanted d n -> (if d_stop d then stops_at (d_mode d) s else ret false) st = (Val true, st)) /\
  (~ step_wanted d n -> (if d_stop d then stops_at (d_mode d) s else ret false) st = (Val false, st)).
Proof.
  intros d s n st H. assert (D := depth_val _ _ _ H). unfold step_wanted. split; intro W.
  - destruct W as (-> & W). destruct (d_mode d) as [|k|k]; cbn [stops_at]; [reflexivity| |]; unfold bind; rewrite D; unfold ret; do 2 f_equal; apply Z.leb_le; lia.
  - destruct (d_stop d); [|reflexivity]. destruct (d_mode d) as [|k|k]; cbn [stops_at]; [exfalso; apply W; auto| |];
      unfold bind; rewrite D; unfold ret; do 2 f_equal; apply Z.leb_gt; (destruct (Z_lt_le_dec k n); [|exfalso; apply W; split; [reflexivity|lia]]) || idtac; try lia.
Qed.
Lemma announce_val : forall h s name t0 sc t st, statement h name t0 -> scope_at st s = Some sc -> s_token sc = Some t ->
  announce h s st = (Val tt, wrote (announcement name (s_module sc) t) st).
Proof.
  intros h s name t0 sc t st (i & v & -> & SY & _) E ET. unfold announce, bind at 1, reads at 1, get_scope. unfold scope_at in E. rewrite E, ET.
  unfold bind at 1, reads at 1. rewrite (ptr_str_sym _ _ _ _ SY). unfold write_line, write_out, wrote, announcement. do 2 f_equal. rewrite <- !app_assoc. reflexivity.
Qed.
(** Stopping: the announcement, then the dialogue. *)
Lemma stop_is : forall h s name t0 sc t st0, statement h name t0 -> scope_at st0 s = Some sc -> s_token sc = Some t ->
  forall o st', ends_with (fun n => (announce h s ;; stop_loop (drun n) n s)) st0 o st' <->
    exists o1, at_prompt false (s_global sc) s s [] (wrote (announcement name (s_module sc) t) st0) o1 st' /\ o = dropped o1.
Proof.
  intros h s name t0 sc t st0 S E ET o st'.
  assert (K : forall n, (announce h s ;; stop_loop (drun n) n s) st0 =
     (let! r := dbg_loop (drun n) n false (s_global sc) s s [] in ret tt) (wrote (announcement name (s_module sc) t) st0)).
  { intro n. unfold bind at 1. rewrite (announce_val _ _ _ _ _ _ _ S E ET). unfold stop_loop, global_of. unfold bind at 1, bind at 1, reads at 1, get_scope.
    cbn [st_scopes wrote with_out]. unfold scope_at in E. rewrite E. reflexivity. }
  split.
  - intros (n & H & N). rewrite K in H. unfold bind in H. destruct (dbg_loop _ _ _ _ _ _ _ _) as [o1 st1] eqn:L. exists o1. split.
    + exists n. split; [|intros ->; injection H as <- _; congruence]. destruct o1; injection H as <- <-; exact L.
    + destruct o1; injection H as <- <-; reflexivity.
  - intros (o1 & (n & H & N) & ->). exists n. split; [|destruct o1; cbn [dropped]; congruence]. rewrite K. unfold bind. rewrite H. destruct o1; reflexivity.
Qed.
Lemma visit_by : forall h s name t st b st1, statement h name t ->
  (exists k0, forall k, (k0 <= k)%nat -> needs_break (drun k) (tk_line t) s st = (Val b, st1)) ->
  forall o st', visit h s st o st' <-> ends_with (fun n => if b : bool then announce h s ;; stop_loop (drun n) n s else ret tt) st1 o st'.
Proof.
  intros h s name t st b st1 S (k0 & H) o st'. rewrite visit_is.
  apply (ends_from _ (fun n => debugger (drun n) n (EvVisit h s)) (fun n => if b then announce h s ;; stop_loop (drun n) n s else ret tt) st st1 k0).
  - intros n m L. apply le_debugger; [apply le_drun, L|exact L].
  - intros n m L. destruct b; [|apply le_refl]. apply le_bind; [apply le_refl|intros _]. unfold stop_loop. apply le_bind; [apply le_refl|intro g].
    apply le_bind; [apply mono_prompt, L|intro; apply le_refl].
  - intros n L. rewrite (visit_line _ _ _ _ _ _ _ S). unfold bind at 1. rewrite (H n L). reflexivity.
Qed.
Lemma goes_on : forall (st0 : state) o st', ends_with (fun _ => ret tt) st0 o st' <-> o = Val tt /\ st' = st0.
Proof. intros st0 o st'. split; [intros (n & H & N); injection H as <- <-; auto|intros (-> & ->); exists O; split; [reflexivity|discriminate]]. Qed.
Lemma visit_stops : forall h s name t sc t1 n st, statement h name t -> scope_at st s = Some sc -> s_token sc = Some t1 -> depth_at st s n ->
  step_wanted (st_dbg st) n \/ (exists b, first_covering (d_bps (st_dbg st)) (tk_line t) (s_module sc) b /\ bp_cond b = []) ->
  forall o st', visit h s st o st' <-> exists o1, at_prompt false (s_global sc) s s [] (stopped name sc t1 st) o1 st' /\ o = dropped o1.
Proof.
  intros h s name t sc t1 n st S E ET D W o st'.
  rewrite (visit_by h s name t st true (stop_set false (d_mode (st_dbg st)) st) S).
  - apply (stop_is h s name t sc t1 (stop_set false (d_mode (st_dbg st)) st) S E ET).
  - exists O. intros k _. unfold needs_break, bind at 1, the_dbg at 1, reads at 1. destruct (step_test (st_dbg st) s n st D) as (TY & TN).
    assert (X : step_wanted (st_dbg st) n \/ ~ step_wanted (st_dbg st) n).
    { unfold step_wanted. destruct (d_stop (st_dbg st)); [|right; intros (X & _); discriminate]. destruct (d_mode (st_dbg st)) as [|j|j]; [left; auto| |].
      - destruct (Z_le_gt_dec n j); [left; auto|right; intros (_ & X); lia]. - destruct (Z_lt_ge_dec n j); [left; auto|right; intros (_ & X); lia]. }
    destruct X as [X|X].
    + unfold bind at 1. rewrite (TY X). reflexivity.
    + destruct W as [W|(b & FC & BC)]; [contradiction|]. unfold bind at 1. rewrite (TN X). unfold bind at 1, hits_breakpoint, bind at 1, reads at 1, get_scope.
      unfold scope_at in E. rewrite E. unfold bind at 1, the_dbg, reads at 1. rewrite (find_first _ _ _ _ FC), BC. reflexivity.
Qed.
Lemma visit_passes : forall h s name t sc n st, statement h name t -> scope_at st s = Some sc -> depth_at st s n ->
  ~ step_wanted (st_dbg st) n -> none_covering (d_bps (st_dbg st)) (tk_line t) (s_module sc) ->
  forall o st', visit h s st o st' <-> o = Val tt /\ st' = st.
Proof.
  intros h s name t sc n st S E D W C o st'. rewrite (visit_by h s name t st false st S); [apply goes_on|].
  exists O. intros k _. unfold needs_break, bind at 1, the_dbg at 1, reads at 1. unfold bind at 1. rewrite (proj2 (step_test (st_dbg st) s n st D) W).
  unfold bind at 1, hits_breakpoint, bind at 1, reads at 1, get_scope. unfold scope_at in E. rewrite E. unfold bind at 1, the_dbg, reads at 1. rewrite (find_none _ _ _ C). reflexivity.
Qed.
(** A condition. *)
Lemma needs_cond : forall k s sc n line b c cond st, scope_at st s = Some sc -> depth_at st s n -> ~ step_wanted (st_dbg st) n ->
  first_covering (d_bps (st_dbg st)) line (s_module sc) b -> bp_cond b = c :: cond ->
  needs_break (drun k) line s st = (let! x := try_catch (let! r := r_script (drun k) (c :: cond) s (s_module sc) in let! v := some_var r in reads (bool_value v))
        (fun _ => Some (write_fmt $"Error: bad condition for line {0}: {1}" [z_to_string (bp_line b); c :: cond] ;; ret false)) in
     if x then set_dbg (set_stop false) ;; ret true else ret false) st.
Proof.
  intros k s sc n line b c cond st E D W FC BC. unfold needs_break. unfold bind at 1, the_dbg at 1, reads at 1. unfold bind at 1. rewrite (proj2 (step_test (st_dbg st) s n st D) W).
  unfold bind at 1 2. unfold hits_breakpoint. unfold bind at 1, reads at 1, get_scope. unfold scope_at in E. rewrite E. unfold bind at 1, the_dbg, reads at 1. rewrite (find_first _ _ _ _ FC), BC. reflexivity.
Qed.
Lemma script_at : forall c s m st o st1, debug_scripts c s m st o st1 -> exists k0, forall k, (k0 <= k)%nat -> r_script (drun k) c s m st = (o, st1).
Proof.
  intros c s m st o st1 (k0 & H & N). exists k0. intros k L. rewrite <- H. apply (lr_script _ _ (le_drun k0 k L)). rewrite H. exact N.
Qed.
Lemma visit_condition : forall h s name t sc n st b v r st1, statement h name t -> scope_at st s = Some sc -> depth_at st s n ->
  ~ step_wanted (st_dbg st) n -> first_covering (d_bps (st_dbg st)) (tk_line t) (s_module sc) b -> bp_cond b <> [] ->
  debug_scripts (bp_cond b) s (s_module sc) st (Val (Some v)) st1 -> is_bool v r ->
  (r = false -> forall o st', visit h s st o st' <-> o = Val tt /\ st' = st1) /\
  (r = true -> forall sc1 t1, scope_at st1 s = Some sc1 -> s_token sc1 = Some t1 -> forall o st', visit h s st o st' <->
     exists o1, at_prompt false (s_global sc1) s s [] (stopped name sc1 t1 st1) o1 st' /\ o = dropped o1).
Proof.
  intros h s name t sc n st b v r st1 S E D W FC NC DS B. destruct (script_at _ _ _ _ _ _ DS) as (k0 & K).
  destruct (bp_cond b) as [|c cond] eqn:BC; [congruence|].
  assert (ND : forall k, (k0 <= k)%nat -> needs_break (drun k) (tk_line t) s st = (if r : bool then set_dbg (set_stop false) ;; ret true else ret false) st1).
  { intros k L. rewrite (needs_cond k s sc n _ b c cond st E D W FC BC). unfold bind at 1, try_catch. unfold bind at 1. rewrite (K k L). unfold bind at 1, some_var. unfold ret at 1. unfold reads at 1.
    rewrite (bool_value_bool _ _ _ B). reflexivity. }
  split; intros ->.
  - intros o st'. rewrite (visit_by h s name t st false st1 S); [apply goes_on|exists k0; exact ND].
  - intros sc1 t1 E1 T1 o st'. rewrite (visit_by h s name t st true (stop_set false (d_mode (st_dbg st1)) st1) S); [|exists k0; exact ND].
    apply (stop_is h s name t sc1 t1 (stop_set false (d_mode (st_dbg st1)) st1) S E1 T1).
Qed.
Lemma visit_bad_condition : forall h s name t sc n st b e st1, statement h name t -> scope_at st s = Some sc -> depth_at st s n ->
  ~ step_wanted (st_dbg st) n -> first_covering (d_bps (st_dbg st)) (tk_line t) (s_module sc) b -> bp_cond b <> [] -> fine_text (bp_cond b) ->
  debug_scripts (bp_cond b) s (s_module sc) st (Throw e) st1 ->
  forall o st', visit h s st o st' <-> o = Val tt /\ st' = wrote ($"Error: bad condition for line " ++ z_to_string (tk_line t) ++ $": " ++ bp_cond b ++ [c_nl]) st1.
Proof.
  intros h s name t sc n st b e st1 S E D W FC NC FT DS o st'. destruct (script_at _ _ _ _ _ _ DS) as (k0 & K).
  destruct (bp_cond b) as [|c cond] eqn:BC; [congruence|]. set (w := c :: cond) in *.
  assert (EF : Format $"Error: bad condition for line {0}: {1}" [z_to_string (bp_line b); w] = Val ($"Error: bad condition for line " ++ z_to_string (bp_line b) ++ $": " ++ w)).
  { etransitivity; [apply (Format_full [PLit $"Error: bad condition for line "; PHole "0"%char; PLit $": "; PHole "1"%char] [z_to_string (bp_line b); w])|].
    - repeat constructor; cbn; intuition discriminate.
    - repeat constructor; try apply int_no_brace; apply FT.
    - unfold has_hole. cbn. intros k I H. repeat destruct I as [<-|I]; try contradiction; destruct H as [H|(wt & x & H)]; intuition discriminate.
    - cbn [template fill_all map fill_hole piece_text concat]. cbn. rewrite app_nil_r. reflexivity. }
  rewrite (visit_by h s name t st false (wrote ($"Error: bad condition for line " ++ z_to_string (tk_line t) ++ $": " ++ w ++ [c_nl]) st1) S); [apply goes_on|].
  exists k0. intros k L. rewrite (needs_cond k s sc n _ b c cond st E D W FC BC). unfold bind at 1, try_catch. unfold bind at 1. fold w. rewrite (K k L).
  unfold bind at 1. unfold write_fmt, bind at 1, lift at 1. rewrite EF. destruct FC as (l1 & l2 & _ & (CL & _) & _). rewrite CL.
  unfold write_line, write_out, wrote. rewrite <- !app_assoc. reflexivity.
Qed.

(** ** Setting breakpoints *)
Lemma split_first : forall fuel c a s, (length s < fuel)%nat ->
  exists w ws, split_loop fuel (a ++ s) [c] (length a) (length a) = Val (w :: ws) /\ ((w = s /\ ~ In c s) \/ exists y, s = w ++ c :: y /\ ~ In c w).
Proof.
  induction fuel as [|fuel IH]; intros c a s L; [lia|]. cbn [split_loop]. rewrite find_from_app.
  destruct (find [c] s) as [p|] eqn:F; cbn [option_map].
  - apply find_char in F. destruct F as (x & y & -> & <- & N).
    replace (length a + length x - length a)%nat with (length x) by lia.
    assert (S1 : substr (a ++ x ++ c :: y) (length a) (length x) = Val x).
    { unfold substr. rewrite app_length. destruct (Nat.ltb_spec (length a + length (x ++ c :: y)) (length a)); [lia|].
      rewrite skipn_app, skipn_all, Nat.sub_diag. cbn [app skipn]. rewrite firstn_app, firstn_all, Nat.sub_diag. cbn. rewrite app_nil_r.
      reflexivity. }
    rewrite S1. cbn [obind].
    destruct (IH c (a ++ x ++ [c]) y) as (w & ws & E & _). { rewrite app_length in L. cbn in L. lia. }
    replace (S (length a + length x)) with (length (a ++ x ++ [c])) by (rewrite !app_length; cbn; lia).
    replace (a ++ x ++ c :: y) with ((a ++ x ++ [c]) ++ y) by (rewrite <- !app_assoc; reflexivity).
    rewrite E. cbn [obind]. exists x, (w :: ws). split; [reflexivity|]. right. exists y. auto.
  - apply find_char_none in F. unfold substr_from. rewrite app_length.
    destruct (Nat.ltb_spec (length a + length s) (length a)); [lia|]. cbn [obind].
    rewrite skipn_app, skipn_all, Nat.sub_diag. cbn. exists s, []. split; [reflexivity|]. left. auto.
Qed.
Lemma Split_first : forall c s, exists w ws, Split s [c] = Val (w :: ws) /\ ((w = s /\ ~ In c s) \/ exists y, s = w ++ c :: y /\ ~ In c w).
Proof. intros c s. apply (split_first (S (S (length s))) c [] s). lia. Qed.
Lemma before_unique : forall (c : ascii) a b x y, a ++ c :: b = x ++ c :: y -> ~ In c a -> ~ In c x -> a = x /\ b = y.
Proof.
  intros c. induction a as [|d a IH]; intros b [|e x] y E NA NX; cbn [app] in E; [injection E as E2; auto| | |]; injection E as E1 E2.
  - subst. exfalso. apply NX. left. reflexivity. - subst. exfalso. apply NA. left. reflexivity.
  - subst. destruct (IH b x y E2) as (-> & ->); [intro I; apply NA; right; exact I|intro I; apply NX; right; exact I|auto].
Qed.
Lemma Split_at : forall c a b, ~ In c a -> exists ws, Split (a ++ c :: b) [c] = Val (a :: ws).
Proof.
  intros c a b N. destruct (Split_first c (a ++ c :: b)) as (w & ws & E & [(EW & NI)|(y & EY & NW)]).
  - exfalso. apply NI, in_app_iff. right. left. reflexivity.
  - destruct (before_unique _ _ _ _ _ EY N NW) as (-> & _). exists ws. exact E.
Qed.
Lemma Split_none : forall c a, ~ In c a -> exists ws, Split a [c] = Val (a :: ws).
Proof.
  intros c a N. destruct (Split_first c a) as (w & ws & E & [(EW & NI)|(y & EY & NW)]); [subst; exists ws; exact E|]. subst. exfalso. apply N, in_app_iff. right. left. reflexivity.
Qed.
Lemma find_at : forall c a b, ~ In c a -> find [c] (a ++ c :: b) = Some (length a).
Proof.
  intros c a b N. destruct (find [c] (a ++ c :: b)) as [p|] eqn:F.
  - apply find_char in F. destruct F as (x & y & E & <- & NX). destruct (before_unique _ _ _ _ _ E N NX) as (-> & _). reflexivity.
  - apply find_char_none in F. exfalso. apply F, in_app_iff. right. left. reflexivity.
Qed.
Lemma find_not : forall c a, ~ In c a -> find [c] a = None.
Proof.
  intros c a N. destruct (find [c] a) as [p|] eqn:F; [|reflexivity]. apply find_char in F. destruct F as (x & y & -> & _). exfalso. apply N, in_app_iff. right. left. reflexivity.
Qed.
Lemma after_len : forall (a b : str), substr_from (a ++ b) (length a) = Val b.
Proof.
  intros a b. unfold substr_from. rewrite app_length. destruct (Nat.ltb_spec (length a + length b) (length a)); [lia|]. rewrite skipn_app, skipn_all, Nat.sub_diag. reflexivity.
Qed.
(** The characters of a line number. *)
Lemma number_chars : forall z c, In c (z_to_string z) -> is_digit c = true \/ c = "-"%char \/ c = "+"%char.
Proof.
  intros z c I. pose proof (z_to_string_int_text z) as H. destruct H as [w N D|w N D|w N D]; rewrite forallb_forall in D; [left; apply D, I| |]; (destruct I as [<-|I]; [auto|left; apply D, I]).
Qed.
Lemma number_not : forall z c, is_digit c = false -> c <> "-"%char -> c <> "+"%char -> ~ In c (z_to_string z).
Proof. intros z c D N1 N2 I. destruct (number_chars z c I) as [X|[X|X]]; congruence. Qed.
Lemma number_some : forall z, z_to_string z <> [].
Proof. intros z E. pose proof (z_to_string_int_text z) as H. rewrite E in H. inversion H. congruence. Qed.
Lemma digit_space : forall c, is_digit c = true \/ c = "-"%char \/ c = "+"%char -> is_space c = false.
Proof.
  assert (K : forall c, (negb (is_digit c || Ascii.eqb c "-" || Ascii.eqb c "+") || negb (is_space c)) = true) by (intros [[] [] [] [] [] [] [] []]; reflexivity).
  intros c H. specialize (K c). destruct (is_space c); [|reflexivity]. destruct H as [H|[H|H]]; rewrite H in K; discriminate.
Qed.
Lemma last_in : forall A (l : list A) d, l <> [] -> In (last l d) l.
Proof. intros A l d H. induction l as [|x [|y l] IH]; [congruence|left; reflexivity|]. right. apply IH. discriminate. Qed.
Lemma last_change : forall A (l : list A) d d', l <> [] -> last l d = last l d'.
Proof. intros A l d d' H. induction l as [|x [|y l] IH]; [congruence|reflexivity|]. apply IH. discriminate. Qed.
Lemma last_app_r : forall A (a b : list A) d, b <> [] -> last (a ++ b) d = last b d.
Proof. intros A a b d H. induction a as [|x a IH]; [reflexivity|]. cbn [app]. destruct (a ++ b) as [|y l] eqn:E; [destruct a; [exfalso; exact (H E)|discriminate]|]. exact IH. Qed.
Lemma tight_ends : forall a b, a <> [] -> b <> [] -> is_space (hd " "%char a) = false -> is_space (last b " "%char) = false -> forall m, (exists a', m = a ++ a') -> (exists b', m = b' ++ b) -> tight m.
Proof.
  intros a b NA NB HA HB m (a' & EA) (b' & EB). destruct a as [|c a]; [congruence|]. subst m. cbn [app tight]. cbn [app] in EB. split; [exact HA|]. rewrite EB. rewrite last_app_r by exact NB.
  rewrite (last_change _ b c " "%char NB). exact HB.
Qed.
Lemma number_first : forall z, is_space (hd " "%char (z_to_string z)) = false.
Proof. intro z. destruct (z_to_string z) as [|c t] eqn:E; [exfalso; exact (number_some z E)|]. apply digit_space, (number_chars z). rewrite E. left. reflexivity. Qed.
Lemma number_last : forall z, is_space (last (z_to_string z) " "%char) = false.
Proof. intro z. apply digit_space, (number_chars z), last_in, number_some. Qed.
Lemma atoi_number : forall z, line_number z -> atoi (cstr (z_to_string z)) = Val z /\ to_size z = z.
Proof.
  intros z H. unfold line_number in H. rewrite (TextProofs.cstr_id _ (number_text_no_nul z)). split; [eapply atoi_stoi, stoi_printed; lia|]. unfold to_size. apply Z.mod_small. lia.
Qed.
Lemma last_index_none : forall c b, ~ In c b -> last_index c b = None.
Proof.
  intros c b N. induction b as [|e b IHb]; [reflexivity|]. cbn [last_index]. rewrite IHb by (intro I; apply N; right; exact I). destruct (Ascii.eqb e c) eqn:X; [|reflexivity].
  apply Ascii.eqb_eq in X. subst. exfalso. apply N. left. reflexivity.
Qed.
Lemma last_index_at : forall c a b, ~ In c b -> last_index c (a ++ c :: b) = Some (length a).
Proof.
  intros c a b N. induction a as [|d a IH]; cbn [app last_index length]; [|rewrite IH; reflexivity].
  rewrite (last_index_none c b N), Ascii.eqb_refl. reflexivity.
Qed.
(** What follows the place. *)
Inductive tail_of : str -> str -> Prop :=
| to_none : tail_of [] []
| to_cond : forall c, condition_text c -> tail_of ($" " ++ c) c.
Lemma trim_space : forall c, tight c -> forallb is_7bit c = true -> Trim ($" " ++ c) = Val c.
Proof.
  intros c T B. apply trim_typed; [|cbn [app forallb]; exact B]. exists $" ", []. rewrite app_nil_r. split; [reflexivity|]. split; [reflexivity|]. split; [reflexivity|exact T].
Qed.
Lemma cond_of : forall a tl cond, ~ In " "%char a -> tail_of tl cond -> forallb is_7bit tl = true ->
  match find $" " (a ++ tl) with Some p => let? t := substr_from (a ++ tl) p in Trim t | None => Val [] end = Val cond.
Proof.
  intros a tl cond N T B. destruct T as [|c (NC & TC)].
  - rewrite app_nil_r. change $" " with [" "%char]. rewrite (find_not _ _ N). reflexivity.
  - change ($" " ++ c) with (" "%char :: c) in *. change $" " with [" "%char]. rewrite (find_at _ _ _ N), after_len. cbn [obind]. change (" "%char :: c) with ($" " ++ c). apply trim_space; [exact TC|]. cbn [forallb] in B. apply andb_true_iff in B. apply B.
Qed.
Lemma args_of : forall a tl cond, ~ In " "%char a -> tail_of tl cond -> exists ws, Split (a ++ tl) $" " = Val (a :: ws).
Proof.
  intros a tl cond N T. destruct T as [|c _]; [rewrite app_nil_r; apply Split_none, N|]. apply Split_at, N.
Qed.
Lemma literal_at : forall name t, ~ In c_dquote name -> string_literal (name ++ c_dquote :: t) = name.
Proof.
  intros name t N. induction name as [|c name IH]; cbn [app string_literal]; [rewrite Ascii.eqb_refl; reflexivity|].
  destruct (Ascii.eqb c c_dquote) eqn:E; [apply Ascii.eqb_eq in E; subst; exfalso; apply N; left; reflexivity|]. rewrite IH; [reflexivity|]. intro I. apply N. right. exact I.
Qed.
Lemma colon_not_number : forall z, ~ In c_colon (z_to_string z).
Proof. intro z. apply number_not; [reflexivity|discriminate|discriminate]. Qed.
Lemma space_not_number : forall z, ~ In " "%char (z_to_string z).
Proof. intro z. apply number_not; [reflexivity|discriminate|discriminate]. Qed.
Lemma number_not_quoted : forall z, match z_to_string z with [] => False | c :: _ => Ascii.eqb c c_dquote = false end.
Proof.
  intro z. pose proof (number_some z). destruct (z_to_string z) as [|c t] eqn:E; [congruence|]. apply Ascii.eqb_neq. intros ->. assert (K := number_chars z c_dquote). rewrite E in K. destruct (K (or_introl eq_refl)) as [Y|[Y|Y]]; discriminate.
Qed.
Lemma parse_place : forall m pl name z tl cond, break_place m pl name z -> tail_of tl cond ->
  exists a1 nm r1, match pl ++ tl with
    | c :: more =>
      if Ascii.eqb c c_dquote then
        let? rest1 := substr_from (pl ++ tl) (length (string_literal more) + 2) in
        match rest1 with
        | d :: r => if Ascii.eqb d c_colon then let? a := Split r $" " in Val (a, string_literal more, rest1)
                    else Val ([], string_literal more, rest1)
        | [] => Val ([], string_literal more, rest1)
        end
      else let? a := Split (pl ++ tl) $" " in Val (a, m, pl ++ tl)
    | [] => let? a := Split (pl ++ tl) $" " in Val (a, m, pl ++ tl)
    end = (let? a := Split (a1 ++ tl) $" " in Val (a, nm, r1 ++ tl)) /\ ~ In " "%char a1 /\ ~ In " "%char r1 /\
    match last_index c_colon a1 with Some p => let? t := substr_from a1 (S p) in Val (t, firstn p a1) | None => Val (a1, nm) end = Val (z_to_string z, name).
Proof.
  intros m pl name z tl cond BP T. destruct BP as [z H|name z H (NS & NQ)|name z H NQ].
  - exists (z_to_string z), m, (z_to_string z). split; [|split; [apply space_not_number|split; [apply space_not_number|rewrite (last_index_none _ _ (colon_not_number z)); reflexivity]]].
    pose proof (number_not_quoted z) as X. destruct (z_to_string z) as [|c t]; [contradiction|]. cbn [app]. rewrite X. reflexivity.
  - assert (NP : ~ In " "%char (name ++ $":" ++ z_to_string z)). { rewrite !in_app_iff. intros [I|[[I|[]]|I]]; [exact (NS I)|discriminate|exact (space_not_number z I)]. }
    exists (name ++ $":" ++ z_to_string z), m, (name ++ $":" ++ z_to_string z). split; [|split; [exact NP|split; [exact NP|]]].
    + destruct name as [|c name]; cbn [app]; [reflexivity|]. destruct NQ as (_ & NQ). apply Ascii.eqb_neq in NQ. rewrite NQ. reflexivity.
    + change (name ++ $":" ++ z_to_string z) with (name ++ c_colon :: z_to_string z). rewrite (last_index_at _ _ _ (colon_not_number z)).
      assert (SF : substr_from (name ++ c_colon :: z_to_string z) (S (length name)) = Val (z_to_string z)).
      { replace (S (length name)) with (length (name ++ [c_colon])) by (rewrite app_length; cbn; lia). change (c_colon :: z_to_string z) with ([c_colon] ++ z_to_string z). rewrite app_assoc. apply after_len. }
      rewrite SF. cbn [obind]. rewrite firstn_app, firstn_all, Nat.sub_diag. cbn [firstn]. rewrite app_nil_r. reflexivity.
  - exists (z_to_string z), name, ($":" ++ z_to_string z). split; [|split; [apply space_not_number|split; [|rewrite (last_index_none _ _ (colon_not_number z)); reflexivity]]].
    + cbn [app]. rewrite Ascii.eqb_refl. rewrite <- app_assoc. cbn [app]. rewrite (literal_at name _ NQ).
      replace (c_dquote :: name ++ c_dquote :: ($":" ++ z_to_string z) ++ tl) with ((c_dquote :: name ++ [c_dquote]) ++ (($":" ++ z_to_string z) ++ tl)) by (cbn [app]; rewrite <- app_assoc; reflexivity).
      replace (length name + 2)%nat with (length (c_dquote :: name ++ [c_dquote])) by (cbn [length]; rewrite app_length; cbn; lia).
      rewrite after_len. cbn [obind app]. reflexivity.
    + rewrite !in_app_iff. intros [[I|[]]|I]; [discriminate|exact (space_not_number z I)].
Qed.
Lemma place_tight : forall m pl name z tl cond, break_place m pl name z -> tail_of tl cond -> tight (pl ++ tl).
Proof.
  intros m pl name z tl cond BP T.
  assert (P1 : pl <> [] /\ is_space (hd " "%char pl) = false).
  { destruct BP as [z H|name z H (NS & NQ)|name z H NQ]; [split; [apply number_some|apply number_first]| |split; [discriminate|reflexivity]].
    destruct name as [|c name]; (split; [discriminate|]); [reflexivity|]. apply NQ. }
  assert (P2 : exists x, pl = x ++ z_to_string z).
  { destruct BP as [z H|name z H (NS & NQ)|name z H NQ]; [exists []; reflexivity|exists (name ++ $":"); rewrite <- app_assoc; reflexivity|].
    exists ([c_dquote] ++ name ++ [c_dquote] ++ $":"). rewrite <- !app_assoc. reflexivity. }
  destruct P1 as (NP & HP). destruct P2 as (x & EX). destruct T as [|c (NC & TC)].
  - apply (tight_ends pl (z_to_string z) NP (number_some z) HP (number_last z)); [exists []; reflexivity|exists x; rewrite app_nil_r; exact EX].
  - apply (tight_ends pl c NP NC HP); [|exists ($" " ++ c); reflexivity|exists (pl ++ $" "); rewrite <- app_assoc; reflexivity].
    destruct c as [|a c]; [congruence|]. cbn [tight] in TC. rewrite (last_change _ (a :: c) " "%char a) by discriminate. apply TC.
Qed.
Lemma parse_break_val : forall m w pl name z tl cond, In w [$"b "; $"break "] -> break_place m pl name z -> tail_of tl cond ->
  forallb is_7bit (w ++ pl ++ tl) = true -> parse_break (w ++ pl ++ tl) m = Val (Some (Bp z name cond)).
Proof.
  intros m w pl name z tl cond IW BP T B. unfold parse_break.
  assert (B2 : forallb is_7bit (pl ++ tl) = true) by (rewrite forallb_app in B; apply andb_true_iff in B; apply B).
  assert (E1 : match find $" " (w ++ pl ++ tl) with Some p => let? t := substr_from (w ++ pl ++ tl) p in Trim t | None => Throw EOutOfRange end = Val (pl ++ tl)).
  { assert (X : exists w0, w = w0 ++ [" "%char] /\ ~ In " "%char w0).
    { repeat destruct IW as [<-|IW]; try contradiction; [exists $"b"|exists $"break"]; (split; [reflexivity|cbn; intuition discriminate]). }
    destruct X as (w0 & -> & N0). rewrite <- app_assoc. change ([" "%char] ++ pl ++ tl) with (" "%char :: pl ++ tl). change $" " with [" "%char]. rewrite (find_at _ _ _ N0), after_len. cbn [obind].
    change (" "%char :: pl ++ tl) with ($" " ++ (pl ++ tl)). apply trim_space; [eapply place_tight; eassumption|exact B2]. }
  rewrite E1. cbn [obind]. destruct (parse_place m pl name z tl cond BP T) as (a1 & nm & r1 & PP & NA & NR & LI).
  assert (BT : forallb is_7bit tl = true) by (rewrite forallb_app in B2; apply andb_true_iff in B2; apply B2).
  destruct (args_of a1 tl cond NA T) as (ws & EA). rewrite EA in PP. cbn [obind] in PP.
  match type of PP with _ = ?r => match goal with |- obind ?x _ = _ => assert (PP' : x = r) by exact PP; rewrite PP' end end. clear PP PP'. cbn [obind].
  assert (C := cond_of r1 tl cond NR T BT). match type of C with _ = ?r => match goal with |- obind ?x _ = _ => assert (C' : x = r) by exact C; rewrite C' end end. clear C C'. cbn [obind].
  match type of LI with _ = ?r => match goal with |- obind ?x _ = _ => assert (L' : x = r) by exact LI; rewrite L' end end. cbn [obind fst snd].
  assert (H : line_number z) by (destruct BP; assumption). destruct (atoi_number z H) as (EN & ES). rewrite EN. cbn [obind]. rewrite ES. reflexivity.
Qed.
Lemma break_tail : forall m w b, break_command m w b -> exists w0 pl tl, w = w0 ++ pl ++ tl /\ In w0 [$"b "; $"break "] /\ break_place m pl (bp_module b) (bp_line b) /\ tail_of tl (bp_cond b).
Proof.
  intros m w b H. destruct H as [w0 pl name z I P|w0 pl name z c I P C].
  - exists w0, pl, []. rewrite app_nil_r. split; [reflexivity|]. split; [exact I|]. split; [exact P|constructor].
  - exists w0, pl, ($" " ++ c). split; [reflexivity|]. split; [exact I|]. split; [exact P|constructor; exact C].
Qed.
Lemma typed_7bit : forall st w rest, typed st w rest -> forallb is_7bit w = true.
Proof.
  intros st w rest (line & _ & (a & b & -> & _) & B). rewrite !forallb_app in B. apply andb_true_iff in B. destruct B as [_ B]. apply andb_true_iff in B. apply B.
Qed.
Lemma break_adds : forall main g top cur script st w rest sc b, typed st w rest -> scope_at st cur = Some sc -> break_command (s_module sc) w b ->
  exists l', added b (d_bps (st_dbg st)) l' /\
    forall o st', at_prompt main g top cur script st o st' <-> at_prompt main g top cur script (bps_set l' (answered st rest)) o st'.
Proof.
  intros main g top cur script st w rest sc b T E BC. exists (add_breakpoint b (d_bps (st_dbg st))). split; [apply add_edit|].
  assert (B7 := typed_7bit _ _ _ T). destruct (break_tail _ _ _ BC) as (w0 & pl & tl & -> & I & P & TL).
  assert (PB := parse_break_val _ _ _ _ _ _ _ I P TL B7). destruct b as [bl bm bc]. cbn [bp_line bp_module bp_cond] in *.
  assert (G : get_scope cur (answered st rest) = Val sc) by (unfold get_scope, scope_at in *; cbn [st_scopes answered with_in with_out]; rewrite E; reflexivity).
  assert (CO : command_of (w0 ++ pl ++ tl) = CBreakpoint) by (repeat destruct I as [<-|I]; try contradiction; reflexivity).
  apply prompt_goes_on. intros n k _. rewrite (loop_obeys _ _ _ _ _ _ _ _ _ _ T). unfold obey. rewrite CO. unfold bind at 1, reads at 1. rewrite G.
  unfold cmd_break. unfold bind at 1, bind at 1, lift at 1. rewrite PB. reflexivity.
Qed.
Lemma clear_word : forall t, command_of ($"clear" ++ t) = CClear.
Proof. intro t. reflexivity. Qed.
Lemma clear_text : forall no, forallb is_7bit (z_to_string no) = true.
Proof.
  intro no. apply forallb_forall. intros c I. destruct (number_chars no c I) as [D|[->| ->]]; try reflexivity. revert D.
  assert (K : (negb (is_digit c) || is_7bit c) = true) by (destruct c as [[] [] [] [] [] [] [] []]; reflexivity). intro D. rewrite D in K. exact K.
Qed.
Lemma clear_arg : forall no, (let? t := substr_from ($"clear " ++ z_to_string no) 5 in Trim t) = Val (z_to_string no).
Proof.
  intro no. change ($"clear " ++ z_to_string no) with ($"clear" ++ ($" " ++ z_to_string no)). change 5%nat with (length $"clear"). rewrite after_len. cbn [obind].
  apply trim_space; [|apply clear_text]. apply (tight_ends (z_to_string no) (z_to_string no) (number_some no) (number_some no) (number_first no) (number_last no)); exists []; [rewrite app_nil_r|]; reflexivity.
Qed.
Lemma clear_step : forall R k main g top cur script st rest no, typed st ($"clear " ++ z_to_string no) rest -> line_number no ->
  dbg_loop R (S k) main g top cur script st =
  ((let! r := lift (clear_breakpoint no (d_bps (st_dbg st))) in
    match r with Some b => set_dbg (set_bps b) | None => write_line $"Warning: no breakpoint cleared" end) ;; dbg_loop R k main g top cur script) (answered st rest).
Proof.
  intros R k main g top cur script st rest no T H. rewrite (loop_obeys _ _ _ _ _ _ _ _ _ _ T). unfold obey. change ($"clear " ++ z_to_string no) with ($"clear" ++ ($" " ++ z_to_string no)). rewrite clear_word.
  change ($"clear" ++ ($" " ++ z_to_string no)) with ($"clear " ++ z_to_string no). unfold cmd_clear. unfold bind at 1. unfold bind at 1, lift at 1. rewrite clear_arg.
  destruct (z_to_string no) as [|c t] eqn:Z; [exfalso; exact (number_some no Z)|]. rewrite <- Z. unfold bind at 1, lift at 1. rewrite (proj1 (atoi_number no H)). reflexivity.
Qed.
Lemma clear_one : forall main g top cur script st rest no l', typed st ($"clear " ++ z_to_string no) rest -> line_number no -> removed no (d_bps (st_dbg st)) l' ->
  forall o st', at_prompt main g top cur script st o st' <-> at_prompt main g top cur script (bps_set l' (answered st rest)) o st'.
Proof.
  intros main g top cur script st rest no l' T H (l1 & c & l2 & EL & EN & E'). apply prompt_goes_on. intros n k _. rewrite (clear_step _ _ _ _ _ _ _ _ _ _ T H).
  destruct (clear_val no (d_bps (st_dbg st))) as (l'' & EC & (m1 & d & m2 & EM & EK & EE)); [rewrite EL, app_length; cbn [length]; lia|unfold line_number in H; lia|].
  assert (Q : l1 = m1 /\ l2 = m2).
  { assert (LL : length l1 = length m1) by lia. rewrite EL in EM. clear -EM LL. revert m1 EM LL. induction l1 as [|x l1 IH]; intros [|y m1] EM LL; cbn in *; try discriminate; injection EM as E1 E2; [auto|]. destruct (IH m1 E2) as (-> & ->); [lia|]. subst. auto. }
  destruct Q as (-> & ->). subst l' l''. unfold bind at 1, bind at 1, lift at 1. rewrite EC. reflexivity.
Qed.
Lemma clear_other : forall main g top cur script st rest no, typed st ($"clear " ++ z_to_string no) rest -> line_number no ->
  (no < 1 \/ Z.of_nat (length (d_bps (st_dbg st))) < no)%Z -> (Z.of_nat (length (d_bps (st_dbg st))) < 2 ^ 63)%Z ->
  forall o st', at_prompt main g top cur script st o st' <-> at_prompt main g top cur script (wrote ($"Warning: no breakpoint cleared" ++ [c_nl]) (answered st rest)) o st'.
Proof.
  intros main g top cur script st rest no T H O L. apply prompt_goes_on. intros n k _. rewrite (clear_step _ _ _ _ _ _ _ _ _ _ T H). unfold line_number in H.
  unfold bind at 1, bind at 1, lift at 1. rewrite clear_none by (try assumption; lia). reflexivity.
Qed.
(** Clearing all. *)
Lemma capital_upper : forall a, map to_upper_c a = map capital a.
Proof. intro a. apply map_ext. intros [[] [] [] [] [] [] [] []]; reflexivity. Qed.
Lemma confirm_answers : forall os a rest k st, st_in st = os ++ a :: rest -> Forall (fun x => ~ says_yes x /\ ~ says_no x /\ forallb is_7bit x = true) os -> forallb is_7bit a = true -> says_yes a \/ says_no a ->
  (length os < k)%nat -> exists b, confirm k st = (Val b, with_in rest st) /\ (b = true <-> says_yes a).
Proof.
  intros os a rest k. revert k. induction os as [|x os IH]; intros k st E F B Y L; (destruct k as [|k]; [cbn in L; lia|]); cbn [confirm app] in *.
  - unfold bind at 1, read_line at 1. rewrite E. unfold bind at 1, lift at 1, ToUpper. rewrite B, capital_upper.
    destruct Y as [[Y|[Y|[]]]|[Y|[Y|[]]]]; unfold says_yes; rewrite <- Y; (eexists; split; [reflexivity|]); split; intro X; try reflexivity; try (left; reflexivity); try (right; left; reflexivity); try discriminate; repeat destruct X as [X|X]; try discriminate; contradiction.
  - inversion F as [|? ? (NY & NN & B7) F']; subst. unfold bind at 1, read_line at 1. rewrite E. unfold bind at 1, lift at 1, ToUpper. rewrite B7, capital_upper.
    destruct (IH k (with_in (os ++ a :: rest) st) eq_refl F' B Y) as (b & EB & IB); [cbn in L; lia|].
    assert (N : forall t, In t [$"Y"; $"YES"; $"N"; $"NO"] -> str_eqb (map capital x) t = false).
    { intros t I. destruct (str_eqb (map capital x) t) eqn:X; [|reflexivity]. apply str_eqb_eq in X. exfalso. unfold says_yes, says_no in *. rewrite X in *. cbn [In] in *. tauto. }
    rewrite !N by (cbn [In]; tauto). cbn [orb]. exists b. split; [|exact IB]. rewrite EB. reflexivity.
Qed.
Lemma clear_all : forall main g top cur script st os a rest, typed st $"clear" (os ++ a :: rest) -> Forall (fun x => ~ says_yes x /\ ~ says_no x /\ forallb is_7bit x = true) os -> forallb is_7bit a = true ->
  (says_yes a -> forall o st', at_prompt main g top cur script st o st' <-> at_prompt main g top cur script (bps_set [] (wrote ($"Really delete all breakpoints? (y/n)" ++ [c_nl]) (answered st rest))) o st') /\
  (says_no a -> forall o st', at_prompt main g top cur script st o st' <-> at_prompt main g top cur script (wrote ($"Really delete all breakpoints? (y/n)" ++ [c_nl]) (answered st rest)) o st').
Proof.
  intros main g top cur script st os a rest T F B.
  assert (K : forall n k y, (length os < k)%nat -> says_yes a \/ says_no a -> (y = true <-> says_yes a) -> dbg_loop (drun n) (S k) main g top cur script st =
     ((if y : bool then set_dbg (set_bps []) else ret tt) ;; dbg_loop (drun n) k main g top cur script) (wrote ($"Really delete all breakpoints? (y/n)" ++ [c_nl]) (answered st rest))).
  { intros n k y L D Y. rewrite (loop_obeys _ _ _ _ _ _ _ _ _ _ T). unfold obey. change (command_of $"clear") with CClear. cbv iota. unfold bind at 1. unfold cmd_clear.
    change (let? t := substr_from $"clear" 5 in Trim t) with (@Val str []). unfold bind at 1, lift at 1. unfold bind at 1, write_line at 1, write_out at 1.
    destruct (confirm_answers os a rest k (with_out (st_out (answered st (os ++ a :: rest)) ++ $"Really delete all breakpoints? (y/n)" ++ [c_nl]) (answered st (os ++ a :: rest))) eq_refl F B D L) as (b & EB & IB).
    unfold bind at 1. rewrite EB. assert (b = y) as -> by (destruct b, y; intuition congruence). destruct y; reflexivity. }
  split; intro Y; apply (prompt_goes_on_from (S (length os))); intros n k L _.
  - rewrite (K n k true) by (try lia; tauto). reflexivity.
  - rewrite (K n k false); [reflexivity|lia|tauto|]. split; [discriminate|]. intro X. unfold says_yes, says_no in *. cbn [In] in *. exfalso. repeat destruct X as [X|X]; repeat destruct Y as [Y|Y]; try contradiction; rewrite <- X in Y; discriminate.
Qed.
Lemma mono_script_at : forall c s m, monotone (fun n => r_script (drun n) c s m).
Proof. intros c s m n k L. apply lr_script, le_drun, L. Qed.
(** An expression. *)
Lemma expression_command : forall t, command_of ("("%char :: t) = CEval.
Proof. intro t. reflexivity. Qed.
Lemma typed_expression : forall main g top cur script st w rest sc, typed st ("("%char :: w) rest -> scope_at st cur = Some sc ->
  (forall v st1 t, debug_scripts ("("%char :: w) cur (s_module sc) (answered st rest) (Val (Some v)) st1 -> var_str v st1 = Val t -> fine_text t ->
     forall o st', at_prompt main g top cur script st o st' <-> at_prompt main g top cur (script ++ ("("%char :: w) ++ [c_nl]) (wrote ($"result=" ++ t ++ [c_nl]) st1) o st') /\
  (forall e st1, debug_scripts ("("%char :: w) cur (s_module sc) (answered st rest) (Throw e) st1 ->
     forall o st', at_prompt main g top cur script st o st' <->
       at_prompt main g top cur script (wrote (match e with ELisp m _ | ELispBase m => $"Exception: " ++ m | _ => $"Native Exception" end ++ [c_nl]) st1) o st').
Proof.
  intros main g top cur script st w rest sc T E.
  assert (G : get_scope cur (answered st rest) = Val sc) by (unfold get_scope, scope_at in *; cbn [st_scopes answered with_in with_out]; rewrite E; reflexivity).
  split.
  - intros v st1 t DS V FT. destruct (script_at _ _ _ _ _ _ DS) as (k0 & K). apply (prompt_goes_on_from k0). intros n k _ L. rewrite (loop_obeys _ _ _ _ _ _ _ _ _ _ T). unfold obey. rewrite expression_command.
    assert (EF : Format $"result={0}" [t] = Val ($"result=" ++ t)).
    { etransitivity; [apply (Format_full [PLit $"result="; PHole "0"%char] [t])|].
      - repeat constructor; cbn; intuition discriminate.
      - repeat constructor; apply FT.
      - unfold has_hole. cbn. intros i I H. repeat destruct I as [<-|I]; try contradiction; destruct H as [H|(wt & x & H)]; intuition discriminate.
      - cbn. rewrite app_nil_r. reflexivity. }
    unfold bind at 1. unfold cmd_eval. unfold bind at 1, reads at 1. rewrite G. unfold try_catch. unfold bind at 1. rewrite (K n L). unfold bind at 1, some_var, ret at 1. unfold bind at 1, reads at 1. rewrite V.
    unfold bind at 1, write_fmt, bind at 1, lift at 1. rewrite EF. unfold write_line, write_out, wrote, ret. rewrite <- !app_assoc. reflexivity.
  - intros e st1 DS. destruct (script_at _ _ _ _ _ _ DS) as (k0 & K). apply (prompt_goes_on_from k0). intros n k _ L. rewrite (loop_obeys _ _ _ _ _ _ _ _ _ _ T). unfold obey. rewrite expression_command.
    unfold bind at 1. unfold cmd_eval. unfold bind at 1, reads at 1. rewrite G. unfold try_catch. unfold bind at 1. rewrite (K n L). destruct e; reflexivity.
Qed.

(** ** Sessions *)
Lemma mono_session : forall had tr c m, monotone (fun n => debugger_loop n n tr c m had).
Proof. intros had tr c m n k L. apply le_debugger_loop; exact L. Qed.
Lemma session_goes_on : forall k0 had had' tr c m st st1,
  (forall n k, (k0 <= k)%nat -> (k0 <= n)%nat -> debugger_loop n (S k) tr c m had st = debugger_loop n k tr c m had' st1) ->
  forall o st', session_after had tr c m st o st' <-> session_after had' tr c m st1 o st'.
Proof.
  intros k0 had had' tr c m st st1 H o st'. split; intros (n & E & N).
  - assert (E' : debugger_loop (S (n + k0)) (S (n + k0)) tr c m had st = (o, st')).
    { rewrite <- E. apply (mono_session had tr c m n (S (n + k0)) ltac:(lia)). rewrite E. exact N. }
    rewrite H in E' by lia. exists (S (n + k0)). split; [|exact N]. rewrite <- E'. apply le_debugger_loop; [lia|lia|]. rewrite E'. exact N.
  - exists (S (n + k0)). split; [|exact N]. rewrite H by lia. rewrite <- E. apply le_debugger_loop; [lia|lia|]. rewrite E. exact N.
Qed.
Lemma session_ends : forall k0 had tr c m st r st1,
  (forall n k, (k0 <= k)%nat -> (k0 <= n)%nat -> debugger_loop n (S k) tr c m had st = (r, st1)) -> r <> NoFuel ->
  forall o st', session_after had tr c m st o st' <-> o = r /\ st' = st1.
Proof.
  intros k0 had tr c m st r st1 H NR o st'. split.
  - intros (n & E & N). assert (E' : debugger_loop (S (n + k0)) (S (n + k0)) tr c m had st = (o, st')).
    { rewrite <- E. apply (mono_session had tr c m n (S (n + k0)) ltac:(lia)). rewrite E. exact N. }
    rewrite H in E' by lia. injection E' as <- <-. auto.
  - intros (-> & ->). exists (S k0). split; [apply H; lia|exact NR].
Qed.
Lemma round_at : forall tr c m st o st1, round_runs tr c m st o st1 -> exists k0, forall k, (k0 <= k)%nat -> lisp_eval (drun k) tr false c main_sid m st = (o, st1).
Proof.
  intros tr c m st o st1 (k0 & H & N). exists k0. intros k L. rewrite <- H. apply le_lisp_eval; [apply le_drun, L|]. rewrite H. exact N.
Qed.
Lemma prompt_at : forall main g top cur script st o st1, at_prompt main g top cur script st o st1 ->
  exists k0, forall n k, (k0 <= n)%nat -> (k0 <= k)%nat -> dbg_loop (drun n) k main g top cur script st = (o, st1).
Proof.
  intros main g top cur script st o st1 (k0 & H & N). exists k0. intros n k L L'. rewrite <- H. apply le_dbg_loop; [apply le_drun, L|exact L'|]. rewrite H. exact N.
Qed.
Definition round_end (n k : nat) (tr : bool) (c m : str) (had : bool) (o : out result) : M bool :=
  let! r := match o with
    | Val v => set_dbg dbg_reset ;; ret (match v with Some _ => true | None => false end, true)
    | Throw EStopDebugger => ret (had, false)
    | Throw (ELisp m _) | Throw (ELispBase m) =>
            write_fmt ([c_nl] ++ $"Exception: {0}") [$"EXCEPTION: " ++ m] ;;
            write_fmt ([c_nl] ++ $"Stack:" ++ [c_nl] ++ $"{0}") [$"<TODO>"] ;;
            let! b := dbg_loop (drun n) k true main_sid main_sid main_sid [] in
            ret (had, b)
    | Throw _ => write_line ([c_nl] ++ $"Native Exception...") ;; ret (had, true)
    | Undef u => undef u | Unmod u => unmod u | NoFuel => no_fuel
    end in
    let '(had1, again) := r in
    if again then
      write_line $"restart program" ;;
      let! b := if had1 then ret true else dbg_loop (drun n) k true main_sid main_sid main_sid [] in
      if b then debugger_loop n k tr c m had1 else ret had1
    else ret had1.
Lemma round_is : forall n k tr c m had st o st1, lisp_eval (drun n) tr false c main_sid m (round_start c m st) = (o, st1) ->
  debugger_loop n (S k) tr c m had st = round_end n k tr c m had o st1.
Proof.
  intros n k tr c m had st o st1 E. cbn [debugger_loop]. unfold round_end.
  assert (RS : forall A (f : M A), ((if str_eqb m $"command-line" then set_dbg (set_script c) else ret tt) ;; fresh_round ;; f) st = f (round_start c m st)).
  { intros A f. unfold round_start. destruct (str_eqb m $"command-line"); [reflexivity|]. destruct st as [a1 a2 a3 a4 a5 a6 a7 a8 a9 a10 [d1 d2 d3 d4]]. reflexivity. }
  rewrite RS. unfold bind at 1. unfold try_catch. unfold bind at 1. rewrite E. destruct o as [v|[e i|e| | |]|u|u|]; reflexivity.
Qed.
Lemma session_normal : forall had tr c m st v st2, round_runs tr c m (round_start c m st) (Val (Some v)) st2 ->
  forall o st', session_after had tr c m st o st' <-> session_after true tr c m (wrote ($"restart program" ++ [c_nl]) (stop_set true StopAlways st2)) o st'.
Proof.
  intros had tr c m st v st2 RR. destruct (round_at _ _ _ _ _ _ RR) as (k0 & K). apply (session_goes_on k0). intros n k _ L. rewrite (round_is _ _ _ _ _ _ _ _ _ (K n L)). reflexivity.
Qed.
Lemma session_exit : forall had tr c m st st2, round_runs tr c m (round_start c m st) (Throw EStopDebugger) st2 ->
  forall o st', session_after had tr c m st o st' <-> o = Val had /\ st' = st2.
Proof.
  intros had tr c m st st2 RR. destruct (round_at _ _ _ _ _ _ RR) as (k0 & K). apply (session_ends k0); [|discriminate]. intros n k _ L. rewrite (round_is _ _ _ _ _ _ _ _ _ (K n L)). reflexivity.
Qed.
Lemma report_writes : forall msg st A (f : M A), fine_text msg ->
  (write_fmt ([c_nl] ++ $"Exception: {0}") [$"EXCEPTION: " ++ msg] ;; write_fmt ([c_nl] ++ $"Stack:" ++ [c_nl] ++ $"{0}") [$"<TODO>"] ;; f) st = f (wrote (session_report msg) st).
Proof.
  intros msg st A f (NB & NN).
  assert (FA : fine_arg ($"EXCEPTION: " ++ msg)). { split; [|discriminate]. rewrite in_app_iff. intros [I|I]; [cbn in I; intuition discriminate|exact (NB I)]. }
  assert (EF : Format ([c_nl] ++ $"Exception: {0}") [$"EXCEPTION: " ++ msg] = Val ([c_nl] ++ $"Exception: EXCEPTION: " ++ msg)).
  { etransitivity; [apply (Format_full [PLit ([c_nl] ++ $"Exception: "); PHole "0"%char] [$"EXCEPTION: " ++ msg])|].
    - repeat constructor; cbn; intuition discriminate.
    - repeat constructor; apply FA.
    - unfold has_hole. cbn. intros i I H. repeat destruct I as [<-|I]; try contradiction; destruct H as [H|(wt & x & H)]; intuition discriminate.
    - cbn. rewrite app_nil_r. reflexivity. }
  unfold bind at 1, write_fmt at 1, bind at 1, lift at 1. rewrite EF. unfold write_line at 1, write_out at 1. unfold bind at 1, write_fmt at 1, bind at 1, lift at 1.
  change (Format ([c_nl] ++ $"Stack:" ++ [c_nl] ++ $"{0}") [$"<TODO>"]) with (@Val str ([c_nl] ++ $"Stack:" ++ [c_nl] ++ $"<TODO>")). unfold write_line, write_out, wrote, session_report. cbn [with_out st_out].
  f_equal. unfold with_out. cbn [st_out st_vecs st_dicts st_scopes st_nid st_nloc st_nsid st_in st_files st_env st_dbg]. f_equal. rewrite <- !app_assoc. reflexivity.
Qed.
Lemma session_error : forall had tr c m st msg e st2 b st3, e = ELispBase msg \/ (exists i, e = ELisp msg i) -> fine_text msg -> round_runs tr c m (round_start c m st) (Throw e) st2 ->
  at_prompt true main_sid main_sid main_sid [] (wrote (session_report msg) st2) (Val b) st3 ->
  (b = false -> forall o st', session_after had tr c m st o st' <-> o = Val had /\ st' = st3) /\
  (b = true -> had = true -> forall o st', session_after had tr c m st o st' <-> session_after true tr c m (wrote ($"restart program" ++ [c_nl]) st3) o st') /\
  (b = true -> had = false -> forall b2 st4, at_prompt true main_sid main_sid main_sid [] (wrote ($"restart program" ++ [c_nl]) st3) (Val b2) st4 ->
     (b2 = false -> forall o st', session_after had tr c m st o st' <-> o = Val false /\ st' = st4) /\
     (b2 = true -> forall o st', session_after had tr c m st o st' <-> session_after false tr c m st4 o st')).
Proof.
  intros had tr c m st msg e st2 b st3 HE FT RR AP. destruct (round_at _ _ _ _ _ _ RR) as (k0 & K). destruct (prompt_at _ _ _ _ _ _ _ _ AP) as (k1 & K1).
  assert (KK : forall n k, (k0 + k1 <= k)%nat -> (k0 + k1 <= n)%nat -> debugger_loop n (S k) tr c m had st = (if b : bool then write_line $"restart program" ;; let! b := if had then ret true else dbg_loop (drun n) k true main_sid main_sid main_sid [] in if b then debugger_loop n k tr c m had else ret had else ret had) st3).
  { intros n k L L'. assert (L0 : (k0 <= n)%nat) by lia. rewrite (round_is _ _ _ _ _ _ _ _ _ (K n L0)). unfold round_end.
    assert (X : forall A (f : _ -> M A), bind (match e with EStopDebugger => ret (had, false) | ELisp m _ | ELispBase m =>
            write_fmt ([c_nl] ++ $"Exception: {0}") [$"EXCEPTION: " ++ m] ;;
            write_fmt ([c_nl] ++ $"Stack:" ++ [c_nl] ++ $"{0}") [$"<TODO>"] ;;
            let! b := dbg_loop (drun n) k true main_sid main_sid main_sid [] in
            ret (had, b) | _ => write_line ([c_nl] ++ $"Native Exception...") ;; ret (had, true) end) f st2 = f (had, b) st3).
    { intros A f. destruct HE as [->|(i & ->)]; unfold bind at 1; rewrite (report_writes msg st2 _ _ FT); unfold bind at 1; rewrite K1 by lia; reflexivity. }
    destruct HE as [->|(i & ->)]; rewrite X; destruct b; reflexivity. }
  split; [|split]; intros ->.
  - apply (session_ends (k0 + k1)); [exact KK|discriminate].
  - intros ->. apply (session_goes_on (k0 + k1)). intros n k L L'. rewrite KK by assumption. reflexivity.
  - intros -> b2 st4 AP2. destruct (prompt_at _ _ _ _ _ _ _ _ AP2) as (k2 & K2).
    assert (KK2 : forall n k, (k0 + k1 + k2 <= k)%nat -> (k0 + k1 + k2 <= n)%nat -> debugger_loop n (S k) tr c m false st = (if b2 : bool then debugger_loop n k tr c m false else ret false) st4).
    { intros n k L L'. rewrite KK by lia. unfold bind at 1. change (write_line $"restart program" st3) with (Val tt, wrote ($"restart program" ++ [c_nl]) st3). cbv iota beta. unfold bind at 1. rewrite K2 by lia. reflexivity. }
    split; intros ->.
    + apply (session_ends (k0 + k1 + k2)); [exact KK2|discriminate].
    + apply (session_goes_on (k0 + k1 + k2)). exact KK2.
Qed.

(** ** Surprises *)
Lemma out_of_main : forall st s n d, depth_at st s n -> d_mode d = StopOut 1 -> ~ step_wanted d n.
Proof. intros st s n d D M (_ & W). rewrite M in W. apply depth_pos in D. lia. Qed.
Lemma restart_continues : forall h s name t sc t1 n st rest, statement h name t -> scope_at st s = Some sc -> s_token sc = Some t1 -> depth_at st s n ->
  step_wanted (st_dbg st) n \/ (exists b, first_covering (d_bps (st_dbg st)) (tk_line t) (s_module sc) b /\ bp_cond b = []) ->
  typed st $"restart" rest -> forall o st', visit h s st o st' <-> o = Val tt /\ st' = answered (stopped name sc t1 st) rest.
Proof.
  intros h s name t sc t1 n st rest S E ET D W T o st'. rewrite (visit_stops h s name t sc t1 n st S E ET D W o st').
  assert (T' : typed (stopped name sc t1 st) $"restart" rest) by exact T.
  split.
  - intros (o1 & A & ->). apply (restart_command false _ _ _ _ _ _ T') in A. destruct A as (-> & ->). split; reflexivity.
  - intros (-> & ->). exists (Val true). split; [|reflexivity]. apply (restart_command false _ _ _ _ _ _ T'). split; reflexivity.
Qed.
Lemma visits_by : forall n h s st o, fst (r_dbg (drun n) (EvVisit h s) st) = o -> o <> NoFuel -> visit h s st o (snd (r_dbg (drun n) (EvVisit h s) st)).
Proof. intros n h s st o E N. exists n. rewrite <- E. split; [apply surjective_pairing|congruence]. Qed.
Lemma debug_scripts_by : forall n c s m st o, fst (r_script (drun n) c s m st) = o -> o <> NoFuel -> debug_scripts c s m st o (snd (r_script (drun n) c s m st)).
Proof. intros n c s m st o E N. exists n. rewrite <- E. split; [apply surjective_pairing|congruence]. Qed.
Lemma debug_evals_by : forall n p s st o, fst (r_eval (drun n) p s st) = o -> o <> NoFuel -> debug_evals p s st o (snd (r_eval (drun n) p s st)).
Proof. intros n p s st o E N. exists n. rewrite <- E. split; [apply surjective_pairing|congruence]. Qed.
Lemma rounds_by : forall n tr c m st o, fst (lisp_eval (drun n) tr false c main_sid m st) = o -> o <> NoFuel -> round_runs tr c m st o (snd (lisp_eval (drun n) tr false c main_sid m st)).
Proof. intros n tr c m st o E N. exists n. rewrite <- E. split; [apply surjective_pairing|congruence]. Qed.
Lemma prompts_by : forall n main g top cur script st o, fst (dbg_loop (drun n) n main g top cur script st) = o -> o <> NoFuel ->
  at_prompt main g top cur script st o (snd (dbg_loop (drun n) n main g top cur script st)).
Proof. intros n main g top cur script st o E N. exists n. rewrite <- E. split; [apply surjective_pairing|congruence]. Qed.
Lemma sessions_by : forall n had tr c m st o, fst (debugger_loop n n tr c m had st) = o -> o <> NoFuel -> session_after had tr c m st o (snd (debugger_loop n n tr c m had st)).
Proof. intros n had tr c m st o E N. exists n. rewrite <- E. split; [apply surjective_pairing|congruence]. Qed.
(** A breakpoint for every module hides one that is meant for the place. *)
Lemma hidden_breakpoint : exists bps b st', distinct bps /\ In b bps /\ place b = ($"m", 3%Z) /\ bp_cond b = [] /\
  visit print_head main_sid (asking [] bps false StopAlways) (Val tt) st' /\ st_out st' = [].
Proof.
  exists [Bp 3 [] $"(== 1 2)"; Bp 3 $"m" []], (Bp 3 $"m" []). eexists. split; [|split; [right; left; reflexivity|split; [reflexivity|split; [reflexivity|split; [apply (visits_by 30); [vm_compute; reflexivity|discriminate]|vm_compute; reflexivity]]]]].
  repeat constructor; cbn; intuition discriminate.
Qed.
(** Typing restart while the program is stopped does not restart it. *)
Lemma restart_ignored : exists o st', round_runs false $"(do (print 1) (print 2))" $"m" (asking [$"restart"] [] true StopAlways) o st' /\ st_in st' = [] /\ 
  exists v, o = Val (Some v) /\ exists a, st_out st' = a ++ $"12".
Proof.
  eexists. eexists. split; [apply (rounds_by 40); [vm_compute; reflexivity|discriminate]|]. split; [vm_compute; reflexivity|]. eexists. split; [reflexivity|]. eexists. vm_compute. match goal with |- ?l = _ => let n := eval compute in (length l - 2)%nat in let a := eval compute in (firstn n l) in instantiate (1 := a); reflexivity end.
Qed.

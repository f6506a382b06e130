(** The evaluator with the debugger attached: more fuel changes nothing, output only grows, breakpoints stay distinct. *)
Require Import String Ascii List ZArith Bool Lia.
Require Import PArith FMapPositive.
From Verif Require Import Base CppString Num Token Tokenizer Parser Value State Show ScopeOps Builtins Table Eval LispTop Debugger
  SpecRun SpecVal SpecText SpecDebug FuelProofs RelProofs.
Import ListNotations.

(** ** More fuel *)
Local Hint Resolve le_refl lr_eval lr_call lr_expand lr_expand1 lr_replace lr_quasi lr_while lr_script lr_dbg : le.
Section Fuel.
Variables Q Q' : recs.
Hypothesis HQ : le_recs Q Q'.
Lemma le_hits : forall l s, le (hits_breakpoint Q l s) (hits_breakpoint Q' l s).
Proof. intros. unfold hits_breakpoint. lauto. Qed.
Local Hint Resolve le_hits : le.
Lemma le_needs : forall l s, le (needs_break Q l s) (needs_break Q' l s).
Proof. intros. unfold needs_break. lauto. Qed.
Lemma le_confirm : forall k k', (k <= k')%nat -> le (confirm k) (confirm k').
Proof.
  induction k as [|k IH]; intros k' L; [apply le_nofuel|]. destruct k' as [|k']; [lia|]. cbn [confirm].
  assert (IH' := IH k' ltac:(lia)). lauto.
Qed.
Lemma le_clear : forall k k' c, (k <= k')%nat -> le (cmd_clear k c) (cmd_clear k' c).
Proof. intros k k' c L. assert (LC := le_confirm k k' L). unfold cmd_clear. lauto. Qed.
Lemma le_fns : forall g k k', (k <= k')%nat -> le (dump_functions k g) (dump_functions k' g).
Proof.
  intros g k. revert g. induction k as [|k IH]; intros g k' L; [apply le_nofuel|]. destruct k' as [|k']; [lia|]. cbn [dump_functions].
  assert (I := fun g => IH g k' ltac:(lia)).
  assert (F : forall vs, le (fold_right (fun (kv : str * ptr) rest => let! q := lift (deref (snd kv)) in (match q with OScope ms1 => dump_functions k ms1 | _ => ret tt end) ;; rest) (ret tt) vs)
     (fold_right (fun (kv : str * ptr) rest => let! q := lift (deref (snd kv)) in (match q with OScope ms1 => dump_functions k' ms1 | _ => ret tt end) ;; rest) (ret tt) vs)).
  { induction vs; cbn [fold_right]; lauto. }
  lauto.
Qed.
Lemma le_doc : forall w c g s, le (cmd_doc Q w c g s) (cmd_doc Q' w c g s).
Proof. intros. unfold cmd_doc. lauto. Qed.
Lemma le_eval : forall c s, le (cmd_eval Q c s) (cmd_eval Q' c s).
Proof. intros. unfold cmd_eval. lauto. Qed.
Local Hint Resolve le_needs le_clear le_doc le_eval : le.
Lemma le_dbg_loop : forall k k' main g top cur script, (k <= k')%nat -> le (dbg_loop Q k main g top cur script) (dbg_loop Q' k' main g top cur script).
Proof.
  induction k as [|k IH]; intros k' main g top cur script L; [apply le_nofuel|]. destruct k' as [|k']; [lia|]. cbn [dbg_loop].
  assert (L' : (k <= k')%nat) by lia. assert (IH' := fun m g t c s => IH k' m g t c s L'). clear IH.
  assert (C := fun c => le_clear k k' c L'). assert (F := fun g => le_fns g k k' L'). lauto.
Qed.
Lemma le_debugger : forall k k' e, (k <= k')%nat -> le (debugger Q k e) (debugger Q' k' e).
Proof.
  intros k k' e L. assert (D := fun m g t c s => le_dbg_loop k k' m g t c s L). unfold debugger, stop_loop. lauto.
Qed.
End Fuel.
Theorem le_drun_S : forall n, le_recs (drun n) (drun (S n)).
Proof.
  induction n as [|n IH]; [constructor; intros; apply le_nofuel|].
  change (drun (S n)) with (dstep (drun n) n) at 1. change (drun (S (S n))) with (dstep (drun (S n)) (S n)).
  apply le_step_with; [exact IH|]. intro e. apply le_debugger; [exact IH|lia].
Qed.
Theorem le_drun : forall n m, (n <= m)%nat -> le_recs (drun n) (drun m).
Proof.
  intros n m H. induction H as [|m H IH]; [apply le_recs_refl|]. pose proof (le_drun_S m) as S1.
  constructor; intros; (eapply le_trans; [apply IH | apply S1]).
Qed.
Lemma le_debugger_loop : forall n n' k k' tr c m h, (n <= n')%nat -> (k <= k')%nat -> le (debugger_loop n k tr c m h) (debugger_loop n' k' tr c m h).
Proof.
  intros n n' k. induction k as [|k IH]; intros k' tr c m h L L'; [apply le_nofuel|]. destruct k' as [|k']; [lia|]. cbn [debugger_loop].
  assert (LK : (k <= k')%nat) by lia. assert (IH' := fun tr c m h => IH k' tr c m h L LK). clear IH.
  assert (HQ := le_drun n n' L). assert (D := fun m g t c s => le_dbg_loop _ _ HQ k k' m g t c s LK).
  apply le_bind; [apply le_refl|intros _]. apply le_bind; [apply le_refl|intros _]. apply le_bind; [|lauto].
  apply le_try2; [apply le_bind; [apply le_lisp_eval, HQ|intro; apply le_refl]|]. intros []; lauto.
Qed.

(** ** Effects common to all debugged runs *)
Definition dbg_fine (d d' : dbg) : Prop := distinct (d_bps d) -> distinct (d_bps d').
Lemma add_edit : forall b l, added b l (add_breakpoint b l).
Proof.
  intros b l. induction l as [|c l IH]; [right; split; [intros []|reflexivity]|]. cbn [add_breakpoint].
  destruct ((bp_line c =? bp_line b)%Z && str_eqb (bp_module c) (bp_module b)) eqn:E.
  - apply andb_true_iff in E. destruct E as [E1 E2]. apply Z.eqb_eq in E1. apply str_eqb_eq in E2.
    left. exists [], c, l. split; [reflexivity|]. split; [unfold place; congruence|]. split; [intros []|reflexivity].
  - assert (NE : place c <> place b).
    { intro X. unfold place in X. injection X as X1 X2. rewrite X1, X2, Z.eqb_refl in E. cbn in E. assert (T := str_eqb_refl (bp_module b)). congruence. }
    destruct IH as [(l1 & e & l2 & EL & EP & N & R)|(N & R)].
    + left. exists (c :: l1), e, l2. rewrite R, EL. split; [reflexivity|]. split; [exact EP|]. split; [|reflexivity].
      intros [X|X]; [exact (NE X)|exact (N X)].
    + right. split; [intros [X|X]; [exact (NE X)|exact (N X)]|]. rewrite R. reflexivity.
Qed.
Lemma nodup_snoc : forall A (l : list A) x, NoDup l -> ~ In x l -> NoDup (l ++ [x]).
Proof.
  intros A l x H N. induction H as [|y l NI ND IH]; [constructor; [intros []|constructor]|]. cbn [app]. constructor.
  - rewrite in_app_iff. intros [X|[X|[]]]; [exact (NI X)|apply N; left; auto].
  - apply IH. intro X. apply N. right. exact X.
Qed.
Lemma added_distinct : forall b l l', added b l l' -> distinct l -> distinct l'.
Proof.
  unfold distinct. intros b l l' [(l1 & c & l2 & -> & E & _ & ->)|(N & ->)] D.
  - rewrite map_app in *. cbn [map] in *. rewrite <- E. exact D.
  - rewrite map_app. cbn [map]. apply nodup_snoc; assumption.
Qed.
Lemma removed_distinct : forall no l l', removed no l l' -> distinct l -> distinct l'.
Proof.
  unfold distinct. intros no l l' (l1 & c & l2 & -> & _ & ->) D. rewrite map_app in *. cbn [map] in D. apply NoDup_remove_1 in D. exact D.
Qed.
Lemma clear_val : forall no l, (1 <= no <= Z.of_nat (length l))%Z -> (no <= 2147483647)%Z -> exists l', clear_breakpoint no l = Val (Some l') /\ removed no l l'.
Proof.
  intros no l H H2. unfold clear_breakpoint. assert (E : in_int (no - 1) = true) by (unfold in_int, int_min, int_max; lia). rewrite E. cbn [negb].
  unfold to_size. rewrite Z.mod_small by lia. destruct (Z.ltb_spec (no - 1) (Z.of_nat (length l))); [|lia].
  set (i := Z.to_nat (no - 1)). assert (L : (i < length l)%nat) by (unfold i; lia).
  exists (firstn i l ++ skipn (S i) l). split; [reflexivity|].
  destruct (nth_error l i) as [c|] eqn:N; [|apply nth_error_None in N; lia]. destruct (nth_error_split l i N) as (l1 & l2 & EL & LE).
  exists l1, c, l2. split; [exact EL|]. split; [unfold i in LE; lia|]. rewrite EL, <- LE.
  rewrite firstn_app, Nat.sub_diag, firstn_all. cbn [firstn]. rewrite app_nil_r. f_equal.
  replace (S (length l1)) with (length (l1 ++ [c])) by (rewrite app_length; cbn; lia). change (c :: l2) with ([c] ++ l2). rewrite app_assoc. rewrite skipn_app, skipn_all, Nat.sub_diag. reflexivity.
Qed.
Lemma clear_none : forall no l, (-2147483648 < no <= 2147483647)%Z -> (no < 1 \/ Z.of_nat (length l) < no)%Z -> (Z.of_nat (length l) < 2 ^ 63)%Z -> clear_breakpoint no l = Val None.
Proof.
  intros no l H O S. unfold clear_breakpoint. assert (E : in_int (no - 1) = true) by (unfold in_int, int_min, int_max; lia). rewrite E. cbn [negb]. unfold to_size.
  destruct O as [O|O].
  - replace ((no - 1) mod 2 ^ 64)%Z with (no - 1 + 2 ^ 64)%Z; [|rewrite <- (Z.mod_add (no - 1) 1 (2 ^ 64)) by lia; rewrite Z.mod_small by lia; lia].
    destruct (Z.ltb_spec (no - 1 + 2 ^ 64) (Z.of_nat (length l))); [lia|reflexivity].
  - destruct (Z_lt_le_dec no 1) as [L|L]; [lia|]. rewrite Z.mod_small by lia. destruct (Z.ltb_spec (no - 1) (Z.of_nat (length l))); [lia|reflexivity].
Qed.
Lemma nodup_cut : forall A (l : list A) i, NoDup l -> NoDup (firstn i l ++ skipn (S i) l).
Proof.
  intros A l i H. destruct (nth_error l i) as [c|] eqn:N.
  - destruct (nth_error_split l i N) as (l1 & l2 & -> & <-). rewrite firstn_app, Nat.sub_diag, firstn_all. cbn [firstn]. rewrite app_nil_r.
    replace (skipn (S (length l1)) (l1 ++ c :: l2)) with l2; [apply NoDup_remove_1 in H; exact H|].
    clear. induction l1 as [|x l1 IH]; [reflexivity|]. cbn [length app skipn] in *. exact IH.
  - apply nth_error_None in N. rewrite firstn_all2 by lia. rewrite skipn_all2 by lia. rewrite app_nil_r. exact H.
Qed.
Lemma clear_distinct : forall no l l', clear_breakpoint no l = Val (Some l') -> distinct l -> distinct l'.
Proof.
  intros no l l' H D. unfold clear_breakpoint in H. destruct (in_int (no - 1)); [|discriminate]. cbn [negb] in H. cbv zeta in H.
  match type of H with context [Z.to_nat ?z] => set (i := Z.to_nat z) in * end.
  destruct (_ <? _)%Z; [|discriminate]. assert (EL : l' = firstn i l ++ skipn (S i) l) by congruence. rewrite EL. unfold distinct in *. rewrite map_app, <- firstn_map, <- skipn_map. apply nodup_cut, D.
Qed.

Local Hint Resolve rel_ret rel_lift rel_reads rel_throw rel_undef rel_unmod rel_some rel_write_line rel_write_fmt rel_some_var rel_dump_vars rel_global_of : rel.
Ltac rstep :=
  match goal with
  | |- rel _ (bind _ _) => apply rel_bind; [assumption| |intros ?]
  | |- rel _ (let x := _ in _) => cbv zeta
  | |- rel _ (match ?x with _ => _ end) => destruct x
  | |- forall _, _ => intro
  end.
Ltac rauto := repeat (first [solve [auto 4 with rel] | rstep]).

Section Effects.
Variable R : state -> state -> Prop.
Hypothesis Rrefl : forall st, R st st.
Hypothesis Rtrans : forall a b c, R a b -> R b c -> R a c.
Hypothesis Rnid : forall o, rel R (new_ptr o).
Hypothesis Rvec : forall es, rel R (alloc_vec es).
Hypothesis Rdict : forall d, rel R (alloc_dict d).
Hypothesis Rscope : forall sc, rel R (alloc_scope sc).
Hypothesis Rputv : forall l es, rel R (put_vec l es).
Hypothesis Rputd : forall l d, rel R (put_dict l d).
Hypothesis Rputs : forall s f, rel R (mod_scope s f).
Hypothesis Rwrite : forall t, rel R (write_out t).
Hypothesis Rread : rel R read_line.
Hypothesis Rfile : forall n t, rel R (write_file n t).
Hypothesis Rdbg : forall st d, dbg_fine (st_dbg st) d -> R st (with_dbg d st).
Hypothesis Rround : rel R fresh_round.

Lemma rel_set_dbg : forall f, (forall d, dbg_fine d (f d)) -> rel R (set_dbg f).
Proof. intros f H st. apply Rdbg, H. Qed.
Lemma fine_stop : forall b d, dbg_fine d (set_stop b d). Proof. intros b d H. exact H. Qed.
Lemma fine_mode : forall m d, dbg_fine d (set_mode m d). Proof. intros m d H. exact H. Qed.
Lemma fine_script : forall t d, dbg_fine d (set_script t d). Proof. intros t d H. exact H. Qed.
Lemma fine_reset : forall d, dbg_fine d (dbg_reset d). Proof. intros d H. exact H. Qed.
Lemma fine_none : forall d, dbg_fine d (set_bps [] d). Proof. intros d H. constructor. Qed.
Lemma fine_add : forall b d, dbg_fine d (set_bps (add_breakpoint b (d_bps d)) d).
Proof. intros b d H. eapply added_distinct; [apply add_edit|exact H]. Qed.
Lemma rel_the_dbg : rel R the_dbg. Proof. apply rel_reads. assumption. Qed.
Local Hint Resolve rel_set_dbg rel_the_dbg fine_stop fine_mode fine_script fine_reset fine_none fine_add : rel.
Lemma rel_depth : forall s, rel R (depth_of s). Proof. intro s. unfold depth_of. rauto. Qed.
Local Hint Resolve rel_depth : rel.
Lemma rel_stops : forall m s, rel R (stops_at m s). Proof. intros. unfold stops_at. rauto. Qed.
Local Hint Resolve rel_stops : rel.
Lemma rel_confirm : forall k, rel R (confirm k). Proof. induction k; cbn [confirm]; [apply rel_lift; assumption|rauto]. Qed.
Local Hint Resolve rel_confirm : rel.
Lemma rel_clear_no : forall no, rel R (let! d := the_dbg in let! r := lift (clear_breakpoint no (d_bps d)) in
    match r with Some b => set_dbg (set_bps b) | None => write_line $"Warning: no breakpoint cleared" end).
Proof.
  intros no st. unfold bind, the_dbg, reads, lift. destruct (clear_breakpoint no (d_bps (st_dbg st))) as [[l|]|?|?|?|] eqn:E; cbn [snd]; try apply Rrefl.
  - apply Rdbg. intro D. eapply clear_distinct; eassumption.
  - apply rel_write_line; assumption.
Qed.
Lemma rel_clear : forall k c, rel R (cmd_clear k c).
Proof. intros k c. assert (H := rel_clear_no). unfold cmd_clear. rauto. Qed.
Lemma rel_break : forall c m, rel R (cmd_break c m). Proof. intros. unfold cmd_break. rauto. Qed.
Lemma rel_show_bps : forall l no, rel R (show_bps no l). Proof. induction l; intro no; cbn [show_bps]; rauto. Qed.
Lemma rel_show_code : forall l no m c, rel R (show_code l no m c). Proof. induction l; intros; cbn [show_code]; rauto. Qed.
Lemma rel_write_lines : forall l, rel R (write_lines l). Proof. induction l; cbn [write_lines]; rauto. Qed.
Local Hint Resolve rel_clear rel_break rel_show_bps rel_show_code rel_write_lines : rel.
Lemma rel_list : rel R cmd_list. Proof. unfold cmd_list. rauto. Qed.
Lemma rel_code : forall t s, rel R (cmd_code t s). Proof. intros. unfold cmd_code. rauto. Qed.
Lemma rel_meta : forall n g, rel R (dump_meta n g). Proof. intros. unfold dump_meta. rauto. Qed.
Lemma rel_announce : forall h s, rel R (announce h s). Proof. intros. unfold announce. rauto. Qed.
Local Hint Resolve rel_list rel_code rel_meta rel_announce : rel.

Section Step.
Variable Q : recs.
Hypothesis HQ : rel_recs R Q.
Local Hint Resolve rr_script rr_eval rr_dbg : rel.
Lemma rel_hits : forall l s, rel R (hits_breakpoint Q l s).
Proof.
  intros. unfold hits_breakpoint. apply rel_bind; [assumption|rauto|intro sc]. apply rel_bind; [assumption|rauto|intro d].
  destruct (List.find _ _) as [b|]; [|rauto]. destruct (bp_cond b); [rauto|]. apply rel_try; [assumption|rauto|]. intros e m [= <-]. rauto.
Qed.
Local Hint Resolve rel_hits : rel.
Lemma rel_needs : forall l s, rel R (needs_break Q l s). Proof. intros. unfold needs_break. rauto. Qed.
Lemma rel_dump_fns : forall b line vs, (forall k v f, rel R (line k v f)) -> rel R (dump_fns b line vs).
Proof. intros b line vs H. induction vs; cbn [dump_fns]; rauto. Qed.
Lemma rel_fn_line : forall i k v f, rel R (fn_line i k v f). Proof. intros. unfold fn_line. rauto. Qed.
Lemma rel_help_line : forall k v f, rel R (help_line k v f). Proof. intros. unfold help_line. rauto. Qed.
Local Hint Resolve rel_dump_fns rel_fn_line rel_help_line : rel.
Lemma rel_functions : forall k g, rel R (dump_functions k g).
Proof.
  induction k as [|k IH]; intros g; cbn [dump_functions]; [apply rel_lift; assumption|].
  assert (F : forall vs, rel R (fold_right (fun (kv : str * ptr) rest => let! q := lift (deref (snd kv)) in (match q with OScope ms1 => dump_functions k ms1 | _ => ret tt end) ;; rest) (ret tt) vs)).
  { induction vs; cbn [fold_right]; rauto. }
  rauto.
Qed.
Lemma rel_builtins : forall g, rel R (dump_builtin_functions g). Proof. intros. unfold dump_builtin_functions. rauto. Qed.
Lemma rel_builtin_help : forall g, rel R (dump_builtin_help g). Proof. intros. unfold dump_builtin_help. rauto. Qed.
Local Hint Resolve rel_functions rel_builtins rel_builtin_help : rel.
Lemma rel_doc : forall w c g s, rel R (cmd_doc Q w c g s). Proof. intros. unfold cmd_doc. rauto. Qed.
Lemma rel_eval : forall c s, rel R (cmd_eval Q c s).
Proof. intros. unfold cmd_eval. apply rel_bind; [assumption|rauto|intro sc]. apply rel_try; [assumption|rauto|]. intros e m [= <-]. rauto. Qed.
Local Hint Resolve rel_needs rel_doc rel_eval : rel.
Lemma rel_dbg_loop : forall k main g top cur script, rel R (dbg_loop Q k main g top cur script).
Proof. induction k as [|k IH]; intros; cbn [dbg_loop]; [apply rel_lift; assumption|]. rauto. Qed.
Local Hint Resolve rel_dbg_loop : rel.
Lemma rel_after_prompt : forall k main g top cur script st,
  R (snd (write_out dbg_prompt st)) (snd (dbg_loop Q (S k) main g top cur script st)).
Proof.
  intros. cbn [dbg_loop]. unfold bind at 1. change (write_out dbg_prompt st) with (Val tt, with_out (st_out st ++ dbg_prompt) st). cbv iota beta. cbn [snd].
  match goal with |- R ?a (snd (?m ?a)) => assert (H : rel R m) by rauto; apply H end.
Qed.
Lemma rel_debugger : forall k e, rel R (debugger Q k e). Proof. intros. unfold debugger, stop_loop. rauto. Qed.
End Step.
Theorem rel_drun : forall n, rel_recs R (drun n).
Proof.
  induction n as [|n IH]; [constructor; intros; apply rel_lift; assumption|]. change (drun (S n)) with (dstep (drun n) n).
  apply rel_step_with; try assumption. intro e. apply rel_debugger. exact IH.
Qed.
Theorem rel_session : forall n k tr c m h, rel R (debugger_loop n k tr c m h).
Proof.
  intros n k. assert (HQ := rel_drun n). assert (D := rel_dbg_loop (drun n) HQ). induction k as [|k IH]; intros; cbn [debugger_loop]; [apply rel_lift; assumption|].
  apply rel_bind; [assumption|rauto|intro]. apply rel_bind; [assumption|rauto|intro]. apply rel_bind; [assumption| |rauto].
  apply rel_try; [assumption| |].
  - apply rel_bind; [assumption|apply rel_lisp_eval; assumption|rauto].
  - intros e q [= <-]. destruct e; rauto.
Qed.
End Effects.
Definition grows (st st' : state) : Prop := exists t, st_out st' = st_out st ++ t.
Lemma grows_refl : forall st, grows st st. Proof. intro st. exists []. rewrite app_nil_r. reflexivity. Qed.
Lemma grows_trans : forall a b c, grows a b -> grows b c -> grows a c.
Proof. intros a b c (t & E) (u & F). exists (t ++ u). rewrite F, E, app_assoc. reflexivity. Qed.
Lemma grows_same : forall st st', st_out st' = st_out st -> grows st st'. Proof. intros st st' E. exists []. rewrite app_nil_r. exact E. Qed.
Lemma same_mod_scope : forall (R : state -> state -> Prop) s f, (forall st, R st st) -> (forall m st, R st (with_scopes m st)) -> rel R (mod_scope s f).
Proof. intros R s f H1 H2 st. unfold mod_scope, bind, reads, get_scope. destruct (PositiveMap.find s (st_scopes st)); [apply H2|apply H1]. Qed.
Lemma grows_drun : forall n, rel_recs grows (drun n).
Proof.
  apply rel_drun; try (intros; intro st; apply grows_same; reflexivity).
  - apply grows_refl. - apply grows_trans. - intros s f. apply same_mod_scope; [apply grows_refl|intros; apply grows_same; reflexivity].
  - intros t st. exists t. reflexivity. - intro st. unfold read_line. destruct (st_in st); apply grows_same; reflexivity.
  - intros st d _. apply grows_same. reflexivity.
Qed.
Definition keeps_distinct (st st' : state) : Prop := dbg_fine (st_dbg st) (st_dbg st').
Ltac kd := try (let st := fresh in let D := fresh in intros; intro st; intro D; exact D).
Lemma distinct_drun : forall n, rel_recs keeps_distinct (drun n).
Proof.
  apply rel_drun; kd.
  - intros st H. exact H. - intros a b c H1 H2 H. apply H2, H1, H. - intros s f. apply same_mod_scope; intros; intro H; exact H.
  - intro st. unfold read_line. destruct (st_in st); intro H; exact H. - intros st d H. exact H.
Qed.
Lemma distinct_session : forall n k tr c m h, rel keeps_distinct (debugger_loop n k tr c m h).
Proof.
  apply rel_session; kd.
  - intros st H. exact H. - intros a b c H1 H2 H. apply H2, H1, H. - intros s f. apply same_mod_scope; intros; intro H; exact H.
  - intro st. unfold read_line. destruct (st_in st); intro H; exact H. - intros st d H. exact H.
Qed.
Lemma distinct_prompt : forall n k main g top cur script, rel keeps_distinct (dbg_loop (drun n) k main g top cur script).
Proof.
  intros n. apply rel_dbg_loop; kd.
  - intros st H. exact H. - intros a b c H1 H2 H. apply H2, H1, H. 
  - intro st. unfold read_line. destruct (st_in st); intro H; exact H. - intros st d H. exact H. - apply distinct_drun.
Qed.
Lemma places_distinct : forall st st', distinct (d_bps (st_dbg st)) ->
  (exists p s o, debug_evals p s st o st') \/ (exists h s o, visit h s st o st') \/
  (exists main g top cur script o, at_prompt main g top cur script st o st') \/
  (exists had tr c m o, session_after had tr c m st o st') -> distinct (d_bps (st_dbg st')).
Proof.
  intros st st' D [(p & s & o & n & E & _)|[(h & s & o & n & E & _)|[(main & g & top & cur & script & o & n & E & _)|(had & tr & c & m & o & n & E & _)]]].
  - assert (H := rr_eval _ _ (distinct_drun n) p s st). cbv beta in E. rewrite E in H. exact (H D).
  - assert (H := rr_dbg _ _ (distinct_drun n) (EvVisit h s) st). cbv beta in E. rewrite E in H. exact (H D).
  - assert (H := distinct_prompt n n main g top cur script st). cbv beta in E. rewrite E in H. exact (H D).
  - assert (H := distinct_session n n tr c m had st). cbv beta in E. rewrite E in H. exact (H D).
Qed.

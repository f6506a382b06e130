(** How errors travel: the safe entry point, calls of closures, literals out of range. *)
Require Import String Ascii List ZArith Bool Lia.
Require Import PArith FMapPositive.
From Verif Require Import Base CppString Num Token Tokenizer Parser Value State Show ScopeOps Builtins Table Eval LispTop
  SpecLex TokProofs ClassifyProofs LexProofs SpecRun SpecText FuelProofs Wf WfProofs RunProofs TextProofs.
Import ListNotations.

(** ** Runs found by computing *)
Lemma ends_intro : forall A (f : nat -> M A) n st o, fst (f n st) = o -> o <> NoFuel -> ends_with f st o (snd (f n st)).
Proof. intros A f n st o E N. exists n. rewrite <- E. split; [destruct (f n st); reflexivity|congruence]. Qed.

(** ** The safe entry point *)
Lemma int_no_brace : forall z, fine_arg (z_to_string z).
Proof.
  intro z. pose proof (z_to_string_int_text z) as H.
  assert (K : forall c, In c (z_to_string z) -> is_digit c = true \/ c = "-"%char \/ c = "+"%char).
  { intros c I. destruct H as [w N D|w N D|w N D].
    - left. rewrite forallb_forall in D. apply D. exact I.
    - destruct I as [<-|I]; [right; right; reflexivity|left]. rewrite forallb_forall in D. apply D. exact I.
    - destruct I as [<-|I]; [right; left; reflexivity|left]. rewrite forallb_forall in D. apply D. exact I. }
  split.
  - intro I. destruct (K _ I) as [E|[E|E]]; discriminate.
  - intro E. assert (I : In "#"%char (z_to_string z)) by (rewrite E; left; reflexivity).
    destruct (K _ I) as [X|[X|X]]; discriminate.
Qed.

Lemma report_ok : forall m i verbose st, fine_text m -> fine_text (ei_module i) -> fine_text (ei_stack i) ->
  report m i verbose st = (Val tt, with_out (st_out st ++ report_text m i verbose) st).
Proof.
  intros m i verbose st Hm Hd Hs.
  pose (ps := [PLit ([c_nl] ++ $"Error executing script." ++ [c_nl; c_nl]); PHole "0"%char; PLit $" --> line="; PHole "1"%char;
               PLit $" start="; PHole "2"%char; PLit $" stop="; PHole "3"%char; PLit $" module="; PHole "4"%char]).
  pose (args := [m; z_to_string (ei_line i); z_to_string (ei_start i); z_to_string (ei_stop i); ei_module i]).
  assert (E1 : Format ([c_nl] ++ $"Error executing script." ++ [c_nl; c_nl] ++
                           $"{0} --> line={1} start={2} stop={3} module={4}") args = Val (template (fill_all digits5 args ps))).
  { apply (Format_full ps args).
    - repeat constructor; cbn; intuition discriminate.
    - unfold args. repeat constructor; try apply int_no_brace; try apply Hm; try apply Hd.
    - cbn. intros k []. }
  pose (ps2 := [PLit ([c_nl] ++ $"Callstack:" ++ [c_nl]); PHole "0"%char]).
  assert (E2 : Format ([c_nl] ++ $"Callstack:" ++ [c_nl] ++ $"{0}") [ei_stack i] = Val (template (fill_all digits5 [ei_stack i] ps2))).
  { apply (Format_full ps2 [ei_stack i]).
    - repeat constructor; cbn; intuition discriminate.
    - repeat constructor; apply Hs.
    - unfold ps2, has_hole. cbn. intros k K H. repeat destruct K as [<-|K]; try contradiction; destruct H as [H|(wt & w & H)]; intuition discriminate. }
  unfold report. fold args. unfold bind, lift. rewrite E1. unfold write_line, write_out. rewrite E2.
  change (template (fill_all digits5 args ps)) with
     (([c_nl] ++ $"Error executing script." ++ [c_nl; c_nl]) ++ m ++ $" --> line=" ++ z_to_string (ei_line i) ++
  $" start=" ++ z_to_string (ei_start i) ++ $" stop=" ++ z_to_string (ei_stop i) ++ $" module=" ++ ei_module i ++ []).
  change (template (fill_all digits5 [ei_stack i] ps2)) with (([c_nl] ++ $"Callstack:" ++ [c_nl]) ++ ei_stack i ++ []).
  change (Format ($"Exception in eval(): {0} " ++ [c_nl] ++ $"data={1}") [$"exc->ToString()"; $"exc.Data"])
      with (Val ($"Exception in eval(): exc->ToString() " ++ [c_nl] ++ $"data=exc.Data")).
  unfold report_text. destruct verbose; cbv beta iota; unfold ret; f_equal; unfold with_out; cbn [st_out]; f_equal;
  rewrite !app_nil_r, <- ?app_assoc; reflexivity.
Qed.

Lemma save_val : forall vb tr oe c md st r st', runs tr oe c md st (Val r) st' -> saves vb tr oe c md st (Val r) st'.
Proof. intros vb tr oe c md st r st' (n & H & N). exists n. split; [|exact N]. unfold save_eval, try_catch. rewrite H. reflexivity. Qed.
Lemma save_base : forall vb tr oe c md st m st', runs tr oe c md st (Throw (ELispBase m)) st' ->
  saves vb tr oe c md st (Val (Some (error_value m))) st'.
Proof. intros vb tr oe c md st m st' (n & H & N). exists n. split; [|discriminate]. unfold save_eval, try_catch. rewrite H. reflexivity. Qed.
Lemma save_lisp : forall vb tr oe c md st m i st', runs tr oe c md st (Throw (ELisp m i)) st' ->
  fine_text m -> fine_text (ei_module i) -> fine_text (ei_stack i) ->
  saves vb tr oe c md st (Val (Some (error_value m))) (with_out (st_out st' ++ report_text m i vb) st').
Proof.
  intros vb tr oe c md st m i st' (n & H & N) F1 F2 F3. exists n. split; [|discriminate]. unfold save_eval, try_catch. rewrite H.
  unfold bind. rewrite (report_ok m i vb st' F1 F2 F3). reflexivity.
Qed.
Lemma save_other : forall vb tr oe c md st o st', runs tr oe c md st o st' ->
  (forall r, o <> Val r) -> (forall m i, o <> Throw (ELisp m i)) -> (forall m, o <> Throw (ELispBase m)) ->
  saves vb tr oe c md st o st'.
Proof.
  intros vb tr oe c md st o st' (n & H & N) A B C. exists n. split; [|exact N]. unfold save_eval, try_catch. rewrite H.
  destruct o as [r|e|u|w|]; try reflexivity. destruct e; try reflexivity; exfalso; [eapply B|eapply C]; reflexivity.
Qed.

(** ** Closures *)
Definition nl {A} (m : M A) : Prop := forall st, not_positioned (fst (m st)).
Lemma np_bind : forall A B (x : out A) (f : A -> out B), not_positioned x -> (forall a, not_positioned (f a)) -> not_positioned (obind x f).
Proof. intros A B x f H K. destruct x; cbn [obind]; try (intros ? ?; discriminate); [apply K|]. intros m i E. inversion E. subst. exact (H m i eq_refl). Qed.
Lemma nl_bind : forall A B (x : M A) (f : A -> M B), nl x -> (forall a, nl (f a)) -> nl (bind x f).
Proof.
  intros A B x f H K st. unfold bind. specialize (H st). destruct (x st) as [o st1]. cbn [fst] in H.
  destruct o; cbn [fst]; try (intros ? ?; discriminate); [apply K|]. intros m i E. inversion E. subst. exact (H m i eq_refl).
Qed.
Lemma np_val : forall A (a : A), not_positioned (Val a).
Proof. intros A a m i. discriminate. Qed.
Lemma np_undef : forall A u, @not_positioned A (Undef u).
Proof. intros A u m i. discriminate. Qed.
Lemma np_base : forall A u, @not_positioned A (Throw (ELispBase u)).
Proof. intros A u m i. discriminate. Qed.
Local Hint Resolve np_val np_undef np_base : np.
Lemma nl_ret : forall A (a : A), nl (ret a).
Proof. intros A a st. apply np_val. Qed.
Lemma nl_undef : forall A u, @nl A (undef u).
Proof. intros A a st. apply np_undef. Qed.
Lemma nl_reads : forall A (f : state -> out A), (forall st, not_positioned (f st)) -> nl (reads f).
Proof. intros A f H st. apply H. Qed.
Lemma nl_lift : forall A (o : out A), not_positioned o -> nl (lift o).
Proof. intros A f H st. apply H. Qed.
Lemma np_deref : forall p, not_positioned (deref p).
Proof. intros p. destruct p; cbn; auto with np. Qed.
Lemma np_vec : forall l st, not_positioned (get_vec l st).
Proof. intros. unfold get_vec. destruct (PositiveMap.find _ _); auto with np. Qed.
Lemma np_dict : forall l st, not_positioned (get_dict l st).
Proof. intros. unfold get_dict. destruct (PositiveMap.find _ _); auto with np. Qed.
Lemma np_scope : forall l st, not_positioned (get_scope l st).
Proof. intros. unfold get_scope. destruct (PositiveMap.find _ _); auto with np. Qed.
Local Hint Resolve np_deref np_vec np_dict np_scope : np.
Lemma np_join : forall A sep (f : A -> out str) l acc, (forall a, not_positioned (f a)) -> not_positioned (join_out sep f l acc).
Proof.
  intros A sep f l. induction l as [|a l IH]; intros acc H; cbn [join_out]; auto with np.
  apply np_bind; auto.
Qed.
Lemma np_show : forall n st r, not_positioned (show n st r).
Proof.
  induction n as [|n IH]; intros st r; [apply np_undef|]. cbn [show].
  assert (IH' : forall r, not_positioned (show n st r)) by (intro; apply IH). clear IH.
  repeat first [solve [auto with np] | apply np_bind; [|intro] | apply np_join; intro | match goal with |- not_positioned (match ?x with _ => _ end) => destruct x end].
Qed.
Lemma np_ptr_str : forall p st, not_positioned (ptr_str p st).
Proof. intros p st. unfold ptr_str. apply np_bind; auto with np. intro o. apply np_show. Qed.
Lemma nl_mod : forall s f, nl (mod_scope s f).
Proof. intros. unfold mod_scope. apply nl_bind; [apply nl_reads; auto with np|]. intros a st. apply np_val. Qed.
Lemma nl_nil_ptrs : forall n, nl (nil_ptrs n).
Proof.
  induction n; cbn [nil_ptrs]; [apply nl_ret|]. apply nl_bind; [intros st; apply np_val|intro]. apply nl_bind; [exact IHn|intro; apply nl_ret].
Qed.
Lemma nl_bind_formals : forall fs a c, nl (bind_formals fs a c).
Proof.
  induction fs as [|f fs IH]; intros a c; cbn [bind_formals]; [apply nl_ret|]. destruct a as [|x a]; [apply nl_undef|].
  apply nl_bind; [apply nl_reads; intro; apply np_ptr_str|intro]. apply nl_bind; [apply nl_mod|intro; apply IH].
Qed.
Lemma nl_ret_bind : forall A B (a : A) (f : A -> M B), nl (f a) -> nl (bind (ret a) f).
Proof. intros A B a f H. exact H. Qed.
Lemma nl_lift_bind : forall A B (a : A) (f : A -> M B), nl (f a) -> nl (bind (lift (Val a)) f).
Proof. intros A B a f H. exact H. Qed.
Lemma closure_not_positioned : forall k name md fargs ds args ls i l, nth_error fargs 0 = Some (P i (OList l)) ->
  nl (call_closure (run k) name md fargs ds args ls).
Proof.
  intros k name md fargs ds args ls i l E. unfold call_closure.
  assert (N : forall A (x : M A), (forall st, exists a st', x st = (Val a, st')) -> nl x).
  { intros A x H st. destruct (H st) as (a & st' & ->). apply np_val. }
  unfold global_of, new_scope, push_next, pop_next, arg. rewrite E. cbn [deref].
  repeat first
    [ apply nl_nil_ptrs | apply nl_bind_formals | apply nl_ret_bind; cbn [deref] | apply nl_lift_bind; cbv beta iota | apply nl_bind; [|intro] | apply nl_ret | apply nl_undef | apply nl_mod 
    | apply nl_reads; intro; solve [auto with np]
    | match goal with
      | |- nl (alloc_scope _) => intro; apply np_val
      | |- nl (new_list_ptr _) => intro; apply np_val
      | |- nl (new_list_obj _) => intro; apply np_val
      | |- nl (new_var_ptr _) => intro; apply np_val
      | |- nl (scope_set _ _ _) => apply nl_mod
      | |- nl (lift (Val _)) => apply nl_lift; apply np_val
      | |- nl (match ?x with _ => _ end) => destruct x
      end ].
  all: try (apply nl_reads; intro st; cbn [get_expression deref obind]; auto with np; fail).
  intro st. unfold try_catch. destruct (r_eval (run k) _ _ st) as [o st1]. destruct o; try (intros ? ?; discriminate).
  destruct e; rewrite ?dbg_error; intros ? ?; discriminate.
Qed.

(** ** Integer literals out of range *)
Definition do_open : source := [(LxOpen, []); (LxWord $"do", $" ")].
Lemma do_word : symbol_text $"do".
Proof. split; [split; [discriminate|reflexivity]|]. right. right. split; [reflexivity|cbn; intuition discriminate]. Qed.
Lemma do_ok : forall s, src_ok s -> src_ok (do_open ++ s).
Proof.
  intros s H. cbn [do_open app src_ok lx_ok]. repeat match goal with |- _ /\ _ => split end; auto; try reflexivity; try discriminate.
  apply do_word.
Qed.
Lemma do_closed : forall s, src_closed s -> src_closed (do_open ++ s).
Proof. intros [|x s] H; cbn [do_open app src_closed]; [left; discriminate|exact H]. Qed.
Lemma do_kinds : forall s ks, src_kinds s ks ->
  src_kinds (do_open ++ s) ((TkListStart, TvStr [c_lpar]) :: (TkSymbol, TvStr $"do") :: ks).
Proof. intros s ks H. cbn [do_open app src_kinds]. repeat split; auto. apply wm_symbol, do_word. Qed.
Lemma decorate_text : forall s t, decorate (src_text s ++ t) = src_text (do_open ++ s) ++ t ++ [c_nl; c_rpar].
Proof. intros s t. unfold decorate. cbn [do_open app src_text lx_text]. rewrite <- !app_assoc. reflexivity. Qed.

Lemma script_bad_tokens : forall tr oe code md st e sc, scope_at st main_sid = Some sc -> tokenize (decorate code) 4 = Throw e ->
  exists st', runs tr oe code md st (Throw e) st'.
Proof.
  intros tr oe code md st e sc E T. eexists. exists 0%nat. split; [|discriminate].
  unfold eval_script, lisp_eval, mod_scope, bind, reads, get_scope, scope_at in *. rewrite E.
  cbn [put_scope]. unfold put_scope, with_scopes. cbn [st_scopes]. rewrite PositiveMap.gss. unfold lift. rewrite T. reflexivity.
Qed.
Lemma literal_escapes : forall vb tr oe md st s ks w z ch rest, reachable st ->
  src_ok s -> src_closed s -> src_kinds s ks ->
  int_text w z -> ~ (- 2 ^ 31 <= z < 2 ^ 31)%Z -> (is_space ch = true \/ ch = c_lpar \/ ch = c_rpar) ->
  exists st', saves vb tr oe (src_text s ++ w ++ ch :: rest) md st (Throw EOutOfRange) st'.
Proof.
  intros vb tr oe md st s ks w z ch rest R H1 H2 H3 H4 H5 H6.
  destruct (reachable_ok st R) as [_ SI]. apply in_found in SI. destruct (scope_at st main_sid) as [sc|] eqn:E; [|unfold scope_at in E; congruence].
  destruct (script_bad_tokens tr oe (src_text s ++ w ++ ch :: rest) md st EOutOfRange sc E) as [st' K].
  { rewrite decorate_text. rewrite <- !app_assoc. cbn [app].
    eapply int_literal_out_of_range; eauto using do_ok, do_closed, do_kinds. }
  exists st'. apply save_other; auto; discriminate.
Qed.

(** ** Consequences and witnesses *)
Lemma runs_det : forall tr oe c md st o1 st1 o2 st2, runs tr oe c md st o1 st1 -> runs tr oe c md st o2 st2 -> o1 = o2 /\ st1 = st2.
Proof. intros tr oe c md st o1 st1 o2 st2. exact (ends_det _ _ st o1 st1 o2 st2 (mono_script tr oe c md)). Qed.
Lemma saves_det : forall vb tr oe c md st o1 st1 o2 st2, saves vb tr oe c md st o1 st1 -> saves vb tr oe c md st o2 st2 -> o1 = o2 /\ st1 = st2.
Proof. intros vb tr oe c md st o1 st1 o2 st2. exact (ends_det _ _ st o1 st1 o2 st2 (mono_save vb tr oe c md)). Qed.
Lemma evals_det : forall p s st o1 st1 o2 st2, evals p s st o1 st1 -> evals p s st o2 st2 -> o1 = o2 /\ st1 = st2.
Proof. intros p s st o1 st1 o2 st2. exact (ends_det _ _ st o1 st1 o2 st2 (mono_eval p s)). Qed.
Lemma calls_det : forall f a s st o1 st1 o2 st2, calls f a s st o1 st1 -> calls f a s st o2 st2 -> o1 = o2 /\ st1 = st2.
Proof. intros f a s st o1 st1 o2 st2. exact (ends_det _ _ st o1 st1 o2 st2 (mono_call f a s)). Qed.
Lemma budget_irrelevant : forall tr oe c md st o st' n m, eval_script n tr oe c md st = (o, st') -> o <> NoFuel -> (n <= m)%nat ->
  eval_script m tr oe c md st = (o, st').
Proof. intros tr oe c md st o st' n m H N L. exact (ends_at _ _ st o st' n m (mono_script tr oe c md) H N L). Qed.

Lemma calls_closure_not_positioned : forall name md i l fargs ds sig doc bi sp ex fm args s st o st',
  calls (MkFn (CClosure name md (P i (OList l) :: fargs) ds) sig doc bi sp ex fm) args s st o st' -> not_positioned o.
Proof.
  intros name md i l fargs ds sig doc bi sp ex fm args s st o st' (n & H & N). destruct n as [|n].
  - cbn in H. unfold no_fuel, lift in H. congruence.
  - cbn [run step r_call] in H. unfold call in H. cbn in H.
    pose proof (closure_not_positioned n name md (P i (OList l) :: fargs) ds args s i l eq_refl st) as K. rewrite H in K. exact K.
Qed.

Lemma runs_by : forall n tr oe c md st o, fst (eval_script n tr oe c md st) = o -> o <> NoFuel ->
  runs tr oe c md st o (snd (eval_script n tr oe c md st)).
Proof. intros n tr oe c md st o E N. exact (ends_intro _ (fun n => eval_script n tr oe c md) n st o E N). Qed.
Lemma saves_by : forall n vb tr oe c md st o, fst (save_eval n vb tr oe c md st) = o -> o <> NoFuel ->
  saves vb tr oe c md st o (snd (save_eval n vb tr oe c md st)).
Proof. intros n vb tr oe c md st o E N. exact (ends_intro _ (fun n => save_eval n vb tr oe c md) n st o E N). Qed.

Lemma dangling_link : exists c st' m callee, runs false false c [] fresh (Throw (ELispBase m)) st' /\
  option_map s_next (scope_at fresh main_sid) = Some None /\ option_map s_next (scope_at st' main_sid) = Some (Some callee).
Proof.
  exists $"(defn f () (undefinedfn)) (f)". eexists. eexists. eexists. split; [|split].
  - apply (runs_by 40). { vm_compute. reflexivity. } discriminate.
  - vm_compute. reflexivity.
  - vm_compute. reflexivity.
Qed.

Lemma escape_by_module : exists c md m st', saves false false false c md fresh (Throw (ELispBase m)) st'.
Proof.
  exists $"(undefinedfn)", $"{1}". eexists. eexists. apply (saves_by 20); [vm_compute; reflexivity|discriminate].
Qed.

Lemma flag_left_set : exists st1 m i st2 v, runs false false $"(setf (first (undefinedfn)) 1)" [] fresh (Throw (ELisp m i)) st1 /\
  runs false false $"(first (list 1 2))" [] st1 (Val (Some v)) st2 /\ v_ty v = TLValue.
Proof.
  eexists. eexists. eexists. eexists. eexists. split; [|split].
  - apply (runs_by 40); [vm_compute; reflexivity|discriminate].
  - apply (runs_by 40); [vm_compute; reflexivity|discriminate].
  - reflexivity.
Qed.
Lemma flag_usual : exists st2 v, runs false false $"(first (list 1 2))" [] fresh (Val (Some v)) st2 /\ v_ty v = TInt.
Proof. eexists. eexists. split; [apply (runs_by 40); [vm_compute; reflexivity|discriminate]|reflexivity]. Qed.

(** An error inside a closure: the safe entry point writes no report. *)
Lemma position_lost : exists m st1 st2, runs false false $"(undefinedfn)" [] fresh (Throw (ELisp m (ErrInfo 1 1 12 [] ($"       1 name=<main>                              lineno=1    module=" ++ [c_nl])))) st1 /\
  saves false false false $"(defn f () (undefinedfn)) (f)" [] fresh (Val (Some (error_value m))) st2 /\ st_out st2 = [].
Proof.
  eexists. eexists. eexists. split; [|split].
  - apply (runs_by 40); [vm_compute; reflexivity|discriminate].
  - apply (saves_by 40); [vm_compute; reflexivity|discriminate].
  - vm_compute. reflexivity.
Qed.

(** The evaluator with and without an idle debugger. *)
Require Import String Ascii List ZArith Bool Lia.
Require Import PArith FMapPositive.
From Verif Require Import Base CppString Num Token Tokenizer Parser Value State Show ScopeOps Builtins Table Eval LispTop Debugger SpecRun SpecVal SpecText SpecDebug FuelProofs RelProofs RunProofs DebugProofs.
Import ListNotations.

(** [m] without, [m'] with the debugger. *)
Definition ag {A} (m m' : M A) : Prop := rel grows m' /\ forall st, idle (st_dbg st) ->
  (m' st = m st /\ st_dbg (snd (m st)) = st_dbg st) \/ spoke st (snd (m' st)) \/ ~ ended (fst (m' st)).

Lemma spoke_grows : forall a b c, spoke a b -> grows b c -> spoke a c.
Proof. intros a b c (x & w & y & I & E) (t & F). exists x, w, (y ++ t). split; [exact I|]. rewrite F, E, <- !app_assoc. reflexivity. Qed.
Lemma grows_spoke : forall a b c, grows a b -> spoke b c -> spoke a c.
Proof. intros a b c (t & F) (x & w & y & I & E). exists (t ++ x), w, y. split; [exact I|]. rewrite E, F, <- !app_assoc. reflexivity. Qed.

(** What a piece of code that never calls the debugger does. *)
Definition calm (st st' : state) : Prop := grows st st' /\ st_dbg st' = st_dbg st.
Lemma pl_refl : forall st, calm st st. Proof. intro st. split; [apply grows_refl|reflexivity]. Qed.
Lemma pl_trans : forall a b c, calm a b -> calm b c -> calm a c.
Proof. intros a b c (H1 & H2) (H3 & H4). split; [eapply grows_trans; eassumption|congruence]. Qed.
Ltac pl := intros; intro; split; [apply grows_same|]; reflexivity.
Lemma pl_nid : forall o, rel calm (new_ptr o). Proof. pl. Qed.
Lemma pl_vec : forall o, rel calm (alloc_vec o). Proof. pl. Qed.
Lemma pl_dict : forall o, rel calm (alloc_dict o). Proof. pl. Qed.
Lemma pl_scope : forall o, rel calm (alloc_scope o). Proof. pl. Qed.
Lemma pl_putv : forall l o, rel calm (put_vec l o). Proof. pl. Qed.
Lemma pl_putd : forall l o, rel calm (put_dict l o). Proof. pl. Qed.
Lemma pl_puts : forall s f, rel calm (mod_scope s f).
Proof. intros s f. apply same_mod_scope; [apply pl_refl|]. intros m st. split; [apply grows_same|]; reflexivity. Qed.
Lemma pl_write : forall t, rel calm (write_out t). Proof. intros t st. split; [exists t|]; reflexivity. Qed.
Lemma pl_read : rel calm read_line. Proof. intro st. unfold read_line. destruct (st_in st); (split; [apply grows_same|]; reflexivity). Qed.
Lemma pl_file : forall n t, rel calm (write_file n t). Proof. pl. Qed.

Lemma ag_refl : forall A (m : M A), rel calm m -> ag m m.
Proof. intros A m H. split; intro st; [apply H|]. left. split; [reflexivity|apply H]. Qed.
Lemma ag_nofuel : forall A (m : M A), ag m no_fuel.
Proof. intros A m. split; intro st; [apply grows_refl|]. right. right. intro E. exact E. Qed.
Lemma ag_bind : forall A B (m m' : M A) (f f' : A -> M B),
  ag m m' -> (forall a, ag (f a) (f' a)) -> ag (bind m f) (bind m' f').
Proof.
  intros A B m m' f f' (Gm & Hm) Hf. split.
  - apply (rel_bind grows grows_trans); [exact Gm|]. intro a. apply Hf.
  - intros st I. unfold bind. specialize (Gm st). destruct (Hm st I) as [(E & D)|[S|N]].
    + rewrite E in *. destruct (m st) as [o st1]. cbn [fst snd] in *. destruct o; try (left; split; [reflexivity|exact D]).
      destruct (Hf a) as (_ & H). rewrite <- D in I. destruct (H st1 I) as [(E' & D')|[S|N]].
      * left. split; [exact E'|congruence].
      * right. left. eapply grows_spoke; [exact Gm|exact S].
      * right. right. exact N.
    + right. destruct (m' st) as [o st1]. cbn [fst snd] in *. destruct o; try (left; exact S). left. eapply spoke_grows; [exact S|apply Hf].
    + right. right. destruct (m' st) as [o st1]. cbn [fst snd] in *. destruct o; cbn in *; tauto.
Qed.
Lemma ag_try2 : forall A (m m' : M A) h h', ag m m' ->
  (forall e, match h e, h' e with Some k, Some k' => ag k k' | None, None => True | _, _ => False end) ->
  ag (try_catch m h) (try_catch m' h').
Proof.
  intros A m m' h h' (Gm & Hm) Hh.
  assert (G : rel grows (try_catch m' h')).
  { apply (rel_try grows grows_trans); [exact Gm|]. intros e k E. specialize (Hh e). rewrite E in Hh. destruct (h e); [apply Hh|contradiction]. }
  split; [exact G|]. intros st I. specialize (Gm st). specialize (G st). unfold try_catch in *. destruct (Hm st I) as [(E & D)|[S|N]].
  - rewrite E in *. destruct (m st) as [o st1]. cbn [fst snd] in *. destruct o; try (left; split; [reflexivity|exact D]).
    specialize (Hh e). destruct (h e) as [k|], (h' e) as [k'|]; try contradiction; [|left; split; [reflexivity|exact D]].
    destruct Hh as (_ & H). rewrite <- D in I. destruct (H st1 I) as [(E' & D')|[S|N]].
      * left. split; [exact E'|congruence].
      * right. left. eapply grows_spoke; [exact Gm|exact S].
      * right. right. exact N.
  - right. left. destruct (m' st) as [o st1]. cbn [fst snd] in *. destruct o; try exact S. specialize (Hh e). destruct (h e) as [k|], (h' e) as [k'|]; try contradiction; [|exact S].
    eapply spoke_grows; [exact S|apply Hh].
  - right. right. destruct (m' st) as [o st1]. cbn [fst snd] in *. destruct o; cbn in *; tauto.
Qed.
Lemma ag_try : forall A (m m' : M A) h, ag m m' -> (forall e k, h e = Some k -> rel calm k) -> ag (try_catch m h) (try_catch m' h).
Proof. intros A m m' h H K. apply ag_try2; [exact H|]. intro e. specialize (K e). destruct (h e) as [k|]; [|exact Logic.I]. apply ag_refl, K. reflexivity. Qed.

Record ag_recs (Q Q' : recs) : Prop := {
  ar_eval : forall p s, ag (r_eval Q p s) (r_eval Q' p s);
  ar_call : forall f a s, ag (r_call Q f a s) (r_call Q' f a s);
  ar_expand : forall p s, ag (r_expand Q p s) (r_expand Q' p s);
  ar_expand1 : forall p s, ag (r_expand1 Q p s) (r_expand1 Q' p s);
  ar_replace : forall v p e b, ag (r_replace Q v p e b) (r_replace Q' v p e b);
  ar_quasi : forall e s, ag (r_quasi Q e s) (r_quasi Q' e s);
  ar_while : forall c b s r, ag (r_while Q c b s r) (r_while Q' c b s r);
  ar_script : forall c s m, ag (r_script Q c s m) (r_script Q' c s m);
  ar_dbg : forall e, ag (r_dbg Q e) (r_dbg Q' e) }.
Local Hint Resolve ar_eval ar_call ar_expand ar_expand1 ar_replace ar_quasi ar_while ar_script ar_dbg : ag.
Ltac pl_prim := first [exact pl_refl|exact pl_trans|exact pl_nid|exact pl_vec|exact pl_dict|exact pl_scope|exact pl_putv|exact pl_putd|exact pl_puts|exact pl_write|exact pl_read|exact pl_file].
Ltac pl_leaf := solve [assumption | first [apply rel_ret
  | apply rel_lift
  | apply rel_reads
  | apply rel_dump
  | apply rel_throw
  | apply rel_undef
  | apply rel_unmod
  | apply rel_some
  | apply rel_new_list_obj
  | apply rel_new_list_ptr
  | apply rel_new_var_ptr
  | apply rel_obj_copy
  | apply rel_scope_set
  | apply rel_scope_index
  | apply rel_new_scope
  | apply rel_push_next
  | apply rel_pop_next
  | apply rel_find_in_modules
  | apply rel_resolve
  | apply rel_throw_scope
  | apply rel_throw_token
  | apply rel_set_in_scopes
  | apply rel_check_args
  | apply rel_check_opt_args
  | apply rel_arg
  | apply rel_some_var
  | apply rel_write_line
  | apply rel_write_fmt
  | apply rel_check_for_function
  | apply rel_check_for_list
  | apply rel_string_repr
  | apply rel_argv
  | apply rel_argc
  | apply rel_args_str
  | apply rel_doc_items
  | apply rel_search_documentation
  | apply rel_dump_vars
  | apply rel_v_add
  | apply rel_list_result
  | apply rel_elem_at
  | apply rel_args_list
  | apply rel_dict_arg
  | apply rel_new_var_ptrs
  | apply rel_global_of
  | apply rel_resolve_elem
  | apply rel_resolve_elems
  | apply rel_head_function
  | apply rel_convert_list
  | apply rel_copy_ptr
  | apply rel_run_setter
  | apply rel_nil_ptrs
  | apply rel_bind_formals
  | apply rel_update_doc
  | apply rel_global_function
  | apply rel_load_tree
  | apply pl_nid | apply pl_vec | apply pl_dict | apply pl_scope | apply pl_putv | apply pl_putd | apply pl_puts | apply pl_write | apply pl_read | apply pl_file]; pl_prim].
Ltac pl_auto := repeat (first [pl_leaf | match goal with
  | |- rel calm (bind _ _) => apply rel_bind; [exact pl_trans| |intros ?]
  | |- rel calm (let x := _ in _) => cbv zeta
  | |- rel calm (match ?x with _ => _ end) => destruct x
  | |- forall _, _ => intro
  end]).
Lemma pl_run : forall n, rel_recs calm (run n).
Proof.
  induction n as [|n IH].
  - constructor; intros; try (apply rel_lift, pl_refl). apply rel_no_debugger; pl_prim.
  - apply rel_step; pl_prim || exact IH.
Qed.
Lemma pl_builtin : forall b a s, rel calm (call_builtin (run 0) b a s).
Proof. intros. apply rel_call_builtin; pl_prim || apply pl_run. Qed.

Ltac lstep :=
  match goal with
  | |- ag (bind _ _) _ => apply ag_bind; [|intros ?]
  | |- ag (try_catch _ _) _ => apply ag_try; [|intros ? ? [= <-]; pl_auto]
  | |- ag (let x := _ in _) _ => cbv zeta
  | |- ag (match ?x with _ => _ end) _ => destruct x
  | |- forall _, _ => intro
  end.
Ltac lauto := repeat (first [solve [auto 3 with ag] | solve [apply ag_refl; pl_leaf] | lstep]).

Section Step.
Variables Q Q' : recs.
Hypothesis HQ : ag_recs Q Q'.

Lemma ag_eval_args : forall sp ps s, ag (eval_args Q sp ps s) (eval_args Q' sp ps s).
Proof. induction ps; intros; cbn [eval_args]; lauto. Qed.
Lemma ag_replace_formals : forall fs ac b s, ag (replace_formals Q fs ac b s) (replace_formals Q' fs ac b s).
Proof. induction fs; intros; cbn [replace_formals]; lauto. Qed.
Local Hint Resolve ag_eval_args ag_replace_formals : ag.
Lemma ag_replace_formal_arguments : forall fs ac b s,
  ag (replace_formal_arguments Q fs ac b s) (replace_formal_arguments Q' fs ac b s).
Proof. intros. unfold replace_formal_arguments. lauto. Qed.
Lemma ag_replace_symbol : forall sy v e m, ag (replace_symbol Q sy v e m) (replace_symbol Q' sy v e m).
Proof. induction e; intros; cbn [replace_symbol]; lauto. Qed.
Local Hint Resolve ag_replace_formal_arguments ag_replace_symbol : ag.
Lemma ag_eval_list : forall h t s, ag (eval_list Q h t s) (eval_list Q' h t s).
Proof. intros. unfold eval_list. lauto. Qed.
Local Hint Resolve ag_eval_list : ag.
Lemma ag_eval_ast : forall p s, ag (eval_ast Q p s) (eval_ast Q' p s).
Proof. intros. unfold eval_ast. lauto. Qed.
Lemma ag_expand_loop : forall p s, ag (expand_loop Q p s) (expand_loop Q' p s).
Proof. intros. unfold expand_loop. lauto. Qed.
Lemma ag_expand_elems : forall ps s, ag (expand_elems Q ps s) (expand_elems Q' ps s).
Proof. induction ps; intros; cbn [expand_elems]; lauto. Qed.
Local Hint Resolve ag_expand_elems : ag.
Lemma ag_expand_once : forall p s, ag (expand_once Q p s) (expand_once Q' p s).
Proof. intros. unfold expand_once. lauto. Qed.
Lemma ag_eval_arg_if_needed : forall p s, ag (eval_arg_if_needed Q p s) (eval_arg_if_needed Q' p s).
Proof. intros. unfold eval_arg_if_needed. lauto. Qed.
Local Hint Resolve ag_eval_arg_if_needed : ag.
Lemma ag_def_helper : forall n t a s, ag (def_helper Q n t a s) (def_helper Q' n t a s).
Proof. intros. unfold def_helper. lauto. Qed.
Lemma ag_import_one : forall p s r, ag (import_one Q p s r) (import_one Q' p s r).
Proof. intros. unfold import_one. lauto. Qed.
Local Hint Resolve ag_def_helper ag_import_one : ag.
Lemma ag_import_loop : forall ps s r, ag (import_loop Q ps s r) (import_loop Q' ps s r).
Proof. induction ps; intros; cbn [import_loop]; lauto. Qed.
Lemma ag_map_loop : forall f es s, ag (map_loop Q f es s) (map_loop Q' f es s).
Proof. induction es; intros; cbn [map_loop]; lauto. Qed.
Lemma ag_reduce_loop : forall f es acc s, ag (reduce_loop Q f es acc s) (reduce_loop Q' f es acc s).
Proof. induction es; intros; cbn [reduce_loop]; lauto. Qed.
Lemma ag_bool_loop : forall op args s acc, ag (bool_loop Q op args s acc) (bool_loop Q' op args s acc).
Proof. induction args; intros; cbn [bool_loop]; lauto. Qed.
Lemma ag_quasi_items : forall es s, ag (quasi_items Q es s) (quasi_items Q' es s).
Proof. induction es; intros; cbn [quasi_items]; lauto. Qed.
Local Hint Resolve ag_import_loop ag_map_loop ag_reduce_loop ag_bool_loop ag_quasi_items : ag.
Lemma ag_quasi : forall es s, ag (quasi Q es s) (quasi Q' es s).
Proof. intros. unfold quasi. lauto. Qed.
Lemma ag_while_loop : forall c b s r, ag (while_loop Q c b s r) (while_loop Q' c b s r).
Proof. intros. unfold while_loop. lauto. Qed.
Lemma ag_do_loop : forall a s r, ag (do_loop Q a s r) (do_loop Q' a s r).
Proof. induction a; intros; cbn [do_loop]; lauto. Qed.
Local Hint Resolve ag_do_loop : ag.
Lemma ag_call_closure : forall n m fa ds a ls, ag (call_closure Q n m fa ds a ls) (call_closure Q' n m fa ds a ls).
Proof.
  intros. unfold call_closure. repeat (first [solve [auto 3 with ag] | solve [apply ag_refl; pl_leaf] |
    match goal with |- ag (try_catch _ _) _ => apply ag_try2; [|intros []; cbn; try exact I] end | lstep]).
Qed.
Local Hint Resolve ag_call_closure : ag.
Lemma ag_defn_helper : forall n a s, ag (defn_helper Q n a s) (defn_helper Q' n a s).
Proof. intros. unfold defn_helper. lauto. Qed.
Local Hint Resolve ag_defn_helper : ag.
Lemma ag_call_builtin : forall b a s, ag (call_builtin Q b a s) (call_builtin Q' b a s).
Proof.
  intros b a s. destruct b; try (apply ag_refl; match goal with |- rel calm (call_builtin _ ?b _ _) => exact (pl_builtin b a s) end); cbn [call_builtin];
    try solve [auto 3 with ag];
    match goal with |- ag (?f _ _ _) _ => unfold f | |- ag (?f _ _) _ => unfold f end; lauto.
Qed.
Local Hint Resolve ag_call_builtin : ag.
Lemma ag_call : forall f a s, ag (call Q f a s) (call Q' f a s).
Proof. intros. unfold call. lauto. Qed.
Lemma ag_lisp_eval : forall t o c s m, ag (lisp_eval Q t o c s m) (lisp_eval Q' t o c s m).
Proof. intros. unfold lisp_eval. lauto. Qed.
Lemma ag_step_with : forall d d', (forall e, ag (d e) (d' e)) -> ag_recs (step_with Q d) (step_with Q' d').
Proof.
  intros d d' Hd. constructor; intros; cbn [step_with r_eval r_call r_expand r_expand1 r_replace r_quasi r_while r_script r_dbg].
  - apply ag_eval_ast. - apply ag_call. - apply ag_expand_loop. - apply ag_expand_once.
  - apply ag_replace_symbol. - apply ag_quasi. - apply ag_while_loop. - apply ag_lisp_eval. - apply Hd.
Qed.
End Step.

Lemma loop_spoke : forall n k main g top cur script st, spoke st (snd (dbg_loop (drun n) k main g top cur script st)) \/ ~ ended (fst (dbg_loop (drun n) k main g top cur script st)).
Proof.
  intros n [|k] main g top cur script st; [right; intro E; exact E|left]. eapply spoke_grows; [|apply (rel_after_prompt grows); try apply grows_drun; try (intros; intro; apply grows_same; reflexivity)].
  - exists [], prompt, []. split; [left; reflexivity|]. rewrite app_nil_r. reflexivity.
  - apply grows_refl. - apply grows_trans. - intros t x. exists t. reflexivity. - intro x. unfold read_line. destruct (st_in x); apply grows_same; reflexivity. - intros x d _. apply grows_same. reflexivity.
Qed.
Lemma no_scope : forall s st, (exists sc, get_scope s st = Val sc) \/ exists u, get_scope s st = Undef u.
Proof. intros s st. unfold get_scope. destruct (PositiveMap.find s (st_scopes st)); eauto. Qed.
Lemma stop_spoke : forall n k s st, spoke st (snd (stop_loop (drun n) k s st)) \/ ~ ended (fst (stop_loop (drun n) k s st)).
Proof.
  intros n k s st. unfold stop_loop, global_of, bind, reads. destruct (no_scope s st) as [(sc & ->)|(u & ->)]; [|right; intro E; exact E].
  cbn [ret]. unfold ret. assert (H := loop_spoke n k false (s_global sc) s s [] st). destruct (dbg_loop _ _ _ _ _ _ _ st) as [o st1]. cbn [fst snd] in H. destruct o; exact H.
Qed.
Lemma ag_debugger : forall n k e, ag (no_debugger e) (debugger (drun n) k e).
Proof.
  intros n k e. 
  assert (G : forall e, rel grows (debugger (drun n) k e)).
  { intro e'. apply rel_debugger; try apply grows_drun; try (intros; intro; apply grows_same; reflexivity).
  - apply grows_refl. - apply grows_trans. - intros t st. exists t. reflexivity. - intro st. unfold read_line. destruct (st_in st); apply grows_same; reflexivity. - intros st d _. apply grows_same. reflexivity. }
  split; [apply G|]. intros st (S & B). destruct e as [h s|s|m body s].
  - cbn [debugger]. unfold needs_break, hits_breakpoint, the_dbg, bind, reads, lift, ret. destruct h as [|i o]; [right; right; intro E; exact E|]. cbn [vref].
    rewrite S. destruct (no_scope s st) as [(sc & ->)|(u & ->)]; [|right; right; intro E; exact E]. rewrite B. left. split; reflexivity.
  - right. cbn [debugger]. apply stop_spoke.
  - right. left. cbn [debugger]. unfold bind at 1. change (write_line ($"EXCEPTION: " ++ m) st) with (Val tt, with_out (st_out st ++ ($"EXCEPTION: " ++ m) ++ [c_nl]) st). cbv iota beta.
    match goal with |- spoke _ (snd (?m ?st1)) => assert (H : rel grows m) end.
    { assert (A : forall h s, rel grows (announce h s)). { intros. apply rel_announce; [apply grows_refl|apply grows_trans|intros t x; exists t; reflexivity]. }
      apply (rel_bind grows grows_trans); [apply rel_lift, grows_refl|intros []]; try apply rel_lift, grows_refl.
      apply (rel_bind grows grows_trans); [apply rel_reads, grows_refl|intros [|h es]]; try apply rel_lift, grows_refl.
      apply (rel_bind grows grows_trans); [apply A|intro]. apply (G (EvBreak s)). }
    eapply spoke_grows; [|apply H]. exists [], $"EXCEPTION: ", (m ++ [c_nl]). split; [right; left; reflexivity|]. cbn [with_out st_out app]. rewrite <- !app_assoc. reflexivity.
Qed.
Lemma ag_run : forall n, ag_recs (run n) (drun n).
Proof.
  induction n as [|n IH]; [constructor; intros; apply ag_nofuel|]. apply (ag_step_with (run n) (drun n) IH no_debugger). intro e. apply ag_debugger.
Qed.
Lemma idle_evaluation : forall p s st o st', debug_evals p s st o st' -> idle (st_dbg st) -> ended o -> ~ spoke st st' ->
  evals p s st o st' /\ st_dbg st' = st_dbg st.
Proof.
  intros p s st o st' (n & H & F) I E N.
  destruct (ar_eval _ _ (ag_run n) p s) as (_ & K). destruct (K st I) as [(E1 & D)|[S|X]]; cbv beta in H; rewrite H in *; [|contradiction|contradiction].
  rewrite <- E1 in D. split; [|exact D]. exists n. split; [symmetry; exact E1|exact F].
Qed.
Lemma idle_program : forall tr c m st o st', round_runs tr c m st o st' -> idle (st_dbg st) -> ended o -> ~ spoke st st' ->
  runs tr false c m st o st' /\ st_dbg st' = st_dbg st.
Proof.
  intros tr c m st o st' (n & H & F) I E N.
  destruct (ag_lisp_eval _ _ (ag_run n) tr false c main_sid m) as (_ & K). destruct (K st I) as [(E1 & D)|[S|X]]; cbv beta in H; rewrite H in *; [|contradiction|contradiction].
  rewrite <- E1 in D. split; [|exact D]. exists n. split; [symmetry; exact E1|exact F].
Qed.

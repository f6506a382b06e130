(** More fuel never changes an outcome that was reached with less. *)
Require Import String Ascii List ZArith Bool Lia.
Require Import PArith FMapPositive.
From Verif Require Import Base CppString Num Token Tokenizer Parser Value State Show ScopeOps Builtins Table Eval LispTop.
Import ListNotations.

(** [m'] does at least as much as [m]: same outcome and state unless [m] ran out of fuel. *)
Definition le {A} (m m' : M A) : Prop := forall st, fst (m st) <> NoFuel -> m' st = m st.

Lemma le_refl : forall A (m : M A), le m m.
Proof. intros A m st _. reflexivity. Qed.
Lemma le_nofuel : forall A (m : M A), le no_fuel m.
Proof. intros A m st H. cbn in H. congruence. Qed.
Lemma le_bind : forall A B (m m' : M A) (f f' : A -> M B),
  le m m' -> (forall a, le (f a) (f' a)) -> le (bind m f) (bind m' f').
Proof.
  intros A B m m' f f' Hm Hf st H. unfold bind in *. specialize (Hm st). destruct (m st) as [o st1].
  cbn [fst] in Hm. destruct o; try (rewrite Hm by discriminate; auto).
  - apply Hf. exact H.
  - cbn in H. congruence.
Qed.
Lemma le_try : forall A (m m' : M A) h, le m m' -> le (try_catch m h) (try_catch m' h).
Proof.
  intros A m m' h Hm st H. unfold try_catch in *. specialize (Hm st). destruct (m st) as [o st1].
  cbn [fst] in Hm. destruct o; try (rewrite Hm by discriminate; auto). cbn in H. congruence.
Qed.

Lemma le_try2 : forall A (m m' : M A) h h', le m m' ->
  (forall e, match h e, h' e with Some k, Some k' => le k k' | None, None => True | _, _ => False end) ->
  le (try_catch m h) (try_catch m' h').
Proof.
  intros A m m' h h' Hm Hh st H. unfold try_catch in *. specialize (Hm st). destruct (m st) as [o st1].
  cbn [fst] in Hm. destruct o; try (rewrite Hm by discriminate; auto); [|cbn in H; congruence].
  specialize (Hh e). destruct (h e), (h' e); try contradiction; [apply Hh; exact H|reflexivity].
Qed.

Record le_recs (Q Q' : recs) : Prop := {
  lr_eval : forall p s, le (r_eval Q p s) (r_eval Q' p s);
  lr_call : forall f a s, le (r_call Q f a s) (r_call Q' f a s);
  lr_expand : forall p s, le (r_expand Q p s) (r_expand Q' p s);
  lr_expand1 : forall p s, le (r_expand1 Q p s) (r_expand1 Q' p s);
  lr_replace : forall v p e b, le (r_replace Q v p e b) (r_replace Q' v p e b);
  lr_quasi : forall e s, le (r_quasi Q e s) (r_quasi Q' e s);
  lr_while : forall c b s r, le (r_while Q c b s r) (r_while Q' c b s r);
  lr_script : forall c s m, le (r_script Q c s m) (r_script Q' c s m);
  lr_dbg : forall e, le (r_dbg Q e) (r_dbg Q' e) }.

Local Hint Resolve le_refl lr_eval lr_call lr_expand lr_expand1 lr_replace lr_quasi lr_while lr_script lr_dbg : le.

Ltac lstep :=
  match goal with
  | |- le (bind _ _) _ => apply le_bind; [|intros ?]
  | |- le (try_catch _ _) _ => apply le_try
  | |- le (let x := _ in _) _ => cbv zeta
  | |- le (match ?x with _ => _ end) _ => destruct x
  | |- forall _, _ => intro
  end.
Ltac lauto := repeat (first [solve [auto 3 with le] | lstep]).

Section Step.
Variables Q Q' : recs.
Hypothesis HQ : le_recs Q Q'.

Lemma le_eval_args : forall sp ps s, le (eval_args Q sp ps s) (eval_args Q' sp ps s).
Proof. induction ps; intros; cbn [eval_args]; lauto. Qed.
Lemma le_replace_formals : forall fs ac b s, le (replace_formals Q fs ac b s) (replace_formals Q' fs ac b s).
Proof. induction fs; intros; cbn [replace_formals]; lauto. Qed.
Local Hint Resolve le_eval_args le_replace_formals : le.
Lemma le_replace_formal_arguments : forall fs ac b s,
  le (replace_formal_arguments Q fs ac b s) (replace_formal_arguments Q' fs ac b s).
Proof. intros. unfold replace_formal_arguments. lauto. Qed.
Lemma le_replace_symbol : forall sy v e m, le (replace_symbol Q sy v e m) (replace_symbol Q' sy v e m).
Proof. induction e; intros; cbn [replace_symbol]; lauto. Qed.
Local Hint Resolve le_replace_formal_arguments le_replace_symbol : le.
Lemma le_eval_list : forall h t s, le (eval_list Q h t s) (eval_list Q' h t s).
Proof. intros. unfold eval_list. lauto. Qed.
Local Hint Resolve le_eval_list : le.
Lemma le_eval_ast : forall p s, le (eval_ast Q p s) (eval_ast Q' p s).
Proof. intros. unfold eval_ast. lauto. Qed.
Lemma le_expand_loop : forall p s, le (expand_loop Q p s) (expand_loop Q' p s).
Proof. intros. unfold expand_loop. lauto. Qed.
Lemma le_expand_elems : forall ps s, le (expand_elems Q ps s) (expand_elems Q' ps s).
Proof. induction ps; intros; cbn [expand_elems]; lauto. Qed.
Local Hint Resolve le_expand_elems : le.
Lemma le_expand_once : forall p s, le (expand_once Q p s) (expand_once Q' p s).
Proof. intros. unfold expand_once. lauto. Qed.
Lemma le_eval_arg_if_needed : forall p s, le (eval_arg_if_needed Q p s) (eval_arg_if_needed Q' p s).
Proof. intros. unfold eval_arg_if_needed. lauto. Qed.
Local Hint Resolve le_eval_arg_if_needed : le.
Lemma le_def_helper : forall n t a s, le (def_helper Q n t a s) (def_helper Q' n t a s).
Proof. intros. unfold def_helper. lauto. Qed.
Lemma le_import_one : forall p s r, le (import_one Q p s r) (import_one Q' p s r).
Proof. intros. unfold import_one. lauto. Qed.
Local Hint Resolve le_def_helper le_import_one : le.
Lemma le_import_loop : forall ps s r, le (import_loop Q ps s r) (import_loop Q' ps s r).
Proof. induction ps; intros; cbn [import_loop]; lauto. Qed.
Lemma le_map_loop : forall f es s, le (map_loop Q f es s) (map_loop Q' f es s).
Proof. induction es; intros; cbn [map_loop]; lauto. Qed.
Lemma le_reduce_loop : forall f es acc s, le (reduce_loop Q f es acc s) (reduce_loop Q' f es acc s).
Proof. induction es; intros; cbn [reduce_loop]; lauto. Qed.
Lemma le_bool_loop : forall op args s acc, le (bool_loop Q op args s acc) (bool_loop Q' op args s acc).
Proof. induction args; intros; cbn [bool_loop]; lauto. Qed.
Lemma le_quasi_items : forall es s, le (quasi_items Q es s) (quasi_items Q' es s).
Proof. induction es; intros; cbn [quasi_items]; lauto. Qed.
Local Hint Resolve le_import_loop le_map_loop le_reduce_loop le_bool_loop le_quasi_items : le.
Lemma le_quasi : forall es s, le (quasi Q es s) (quasi Q' es s).
Proof. intros. unfold quasi. lauto. Qed.
Lemma le_while_loop : forall c b s r, le (while_loop Q c b s r) (while_loop Q' c b s r).
Proof. intros. unfold while_loop. lauto. Qed.
Lemma le_do_loop : forall a s r, le (do_loop Q a s r) (do_loop Q' a s r).
Proof. induction a; intros; cbn [do_loop]; lauto. Qed.
Local Hint Resolve le_do_loop : le.
Lemma le_call_closure : forall n m fa ds a ls, le (call_closure Q n m fa ds a ls) (call_closure Q' n m fa ds a ls).
Proof.
  intros. unfold call_closure. repeat (first [solve [auto 3 with le] |
    match goal with |- le (try_catch _ _) _ => apply le_try2; [|intros []; cbn; try exact I] end | lstep]).
Qed.
Local Hint Resolve le_call_closure : le.
Lemma le_defn_helper : forall n a s, le (defn_helper Q n a s) (defn_helper Q' n a s).
Proof. intros. unfold defn_helper. lauto. Qed.
Local Hint Resolve le_defn_helper : le.
Lemma le_call_builtin : forall b a s, le (call_builtin Q b a s) (call_builtin Q' b a s).
Proof.
  intros b a s. destruct b; cbn [call_builtin];
    try solve [auto 3 with le];
    match goal with |- le (?f _ _ _) _ => unfold f | |- le (?f _ _) _ => unfold f end; lauto.
Qed.
Local Hint Resolve le_call_builtin : le.
Lemma le_call : forall f a s, le (call Q f a s) (call Q' f a s).
Proof. intros. unfold call. lauto. Qed.
Lemma le_lisp_eval : forall t o c s m, le (lisp_eval Q t o c s m) (lisp_eval Q' t o c s m).
Proof. intros. unfold lisp_eval. lauto. Qed.
Lemma le_step_with : forall d d', (forall e, le (d e) (d' e)) -> le_recs (step_with Q d) (step_with Q' d').
Proof.
  intros d d' Hd. constructor; intros; cbn [step_with r_eval r_call r_expand r_expand1 r_replace r_quasi r_while r_script r_dbg].
  - apply le_eval_ast. - apply le_call. - apply le_expand_loop. - apply le_expand_once.
  - apply le_replace_symbol. - apply le_quasi. - apply le_while_loop. - apply le_lisp_eval. - apply Hd.
Qed.
Lemma le_step : le_recs (step Q) (step Q').
Proof. exact (le_step_with no_debugger no_debugger (fun e => le_refl _ _)). Qed.
End Step.

Lemma le_recs_refl : forall Q, le_recs Q Q.
Proof. constructor; intros; apply le_refl. Qed.

Theorem le_run_S : forall n, le_recs (run n) (run (S n)).
Proof.
  induction n as [|n IH]; [constructor; intros; first [apply le_nofuel|apply le_refl]|].
  change (run (S n)) with (step (run n)) at 1. change (run (S (S n))) with (step (run (S n))).
  apply le_step. exact IH.
Qed.

Lemma le_trans : forall A (a b c : M A), le a b -> le b c -> le a c.
Proof. intros A a b c H1 H2 st H. rewrite <- (H1 st H). apply H2. rewrite (H1 st H). exact H. Qed.

Theorem le_run : forall n m, (n <= m)%nat -> le_recs (run n) (run m).
Proof.
  intros n m H. induction H as [|m H IH]; [apply le_recs_refl|].
  pose proof (le_run_S m) as S1.
  constructor; intros; (eapply le_trans; [apply IH | apply S1]).
Qed.

Lemma le_eval_script : forall n m tr oe c mn, (n <= m)%nat ->
  le (eval_script n tr oe c mn) (eval_script m tr oe c mn).
Proof. intros. apply le_lisp_eval. apply le_run. assumption. Qed.
Lemma le_save_eval : forall n m v tr oe c mn, (n <= m)%nat ->
  le (save_eval n v tr oe c mn) (save_eval m v tr oe c mn).
Proof. intros. apply le_try. apply le_eval_script. assumption. Qed.

(** Two runs that both finish agree, whatever their fuel. *)
Lemma run_deterministic : forall n m tr oe c mn st,
  fst (eval_script n tr oe c mn st) <> NoFuel -> fst (eval_script m tr oe c mn st) <> NoFuel ->
  eval_script n tr oe c mn st = eval_script m tr oe c mn st.
Proof.
  intros n m tr oe c mn st Hn Hm. destruct (Nat.le_ge_cases n m) as [L|L].
  - symmetry. apply (le_eval_script n m); assumption.
  - apply (le_eval_script m n); assumption.
Qed.

(** Without a debugger nothing happens at a visit or when an error leaves a function. *)
Lemma dbg_visit : forall n h s, r_dbg (run n) (EvVisit h s) = ret tt.
Proof. intros [|n] h s; reflexivity. Qed.
Lemma dbg_error : forall n m b s, r_dbg (run n) (EvError m b s) = ret tt.
Proof. intros [|n] m b s; reflexivity. Qed.

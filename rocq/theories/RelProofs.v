(** Every run relates the states before and after by any preorder that all primitive
    effects respect. *)
Require Import String Ascii List ZArith Bool Lia.
Require Import PArith FMapPositive.
From Verif Require Import Base CppString Num Token Tokenizer Parser Value State Show ScopeOps Builtins Table Eval LispTop.
Import ListNotations.

Section Rel.
Variable R : state -> state -> Prop.
Definition rel {A} (m : M A) : Prop := forall st, R st (snd (m st)).

Hypothesis Rrefl : forall st, R st st.
Hypothesis Rtrans : forall a b c, R a b -> R b c -> R a c.
Hypothesis Rnid : forall o, rel (new_ptr o).
Hypothesis Rvec : forall es, rel (alloc_vec es).
Hypothesis Rdict : forall d, rel (alloc_dict d).
Hypothesis Rscope : forall sc, rel (alloc_scope sc).
Hypothesis Rputv : forall l es, rel (put_vec l es).
Hypothesis Rputd : forall l d, rel (put_dict l d).
Hypothesis Rputs : forall s f, rel (mod_scope s f).
Hypothesis Rwrite : forall t, rel (write_out t).
Hypothesis Rread : rel read_line.
Hypothesis Rfile : forall n t, rel (write_file n t).

Lemma rel_ret : forall A (a : A), rel (ret a).
Proof. intros A a st. apply Rrefl. Qed.
Lemma rel_lift : forall A (o : out A), rel (lift o).
Proof. intros A o st. apply Rrefl. Qed.
Lemma rel_reads : forall A (f : state -> out A), rel (reads f).
Proof. intros A f st. apply Rrefl. Qed.
Lemma rel_bind : forall A B (m : M A) (f : A -> M B), rel m -> (forall a, rel (f a)) -> rel (bind m f).
Proof.
  intros A B m f Hm Hf st. unfold bind. specialize (Hm st). destruct (m st) as [o st1]. cbn [snd] in Hm.
  destruct o; cbn [snd]; auto. eapply Rtrans; [exact Hm|apply Hf].
Qed.
Lemma rel_try : forall A (m : M A) h, rel m -> (forall e k, h e = Some k -> rel k) -> rel (try_catch m h).
Proof.
  intros A m h Hm Hh st. unfold try_catch. specialize (Hm st). destruct (m st) as [o st1]. cbn [snd] in Hm.
  destruct o; cbn [snd]; auto. destruct (h e) eqn:E; cbn [snd]; auto.
  eapply Rtrans; [exact Hm|]. eapply Hh; eauto.
Qed.
Lemma rel_dump : forall f, rel (dump_documentation f).
Proof. intros f st. unfold dump_documentation. destruct (f st); apply Rrefl. Qed.

Local Hint Resolve rel_ret rel_lift rel_reads Rnid Rvec Rdict Rscope Rputv Rputd Rputs Rwrite Rread Rfile rel_dump : rel.

Ltac rstep :=
  match goal with
  | |- rel (bind _ _) => apply rel_bind; [|intros ?]
  | |- rel (let x := _ in _) => cbv zeta
  | |- rel (match ?x with _ => _ end) => destruct x
  | |- forall _, _ => intro
  end.
Ltac rauto := repeat (first [solve [auto 3 with rel] | rstep]).

Lemma rel_throw : forall A e, @rel A (throw e).
Proof. intros. apply rel_lift. Qed.
Lemma rel_undef : forall A e, @rel A (undef e).
Proof. intros. apply rel_lift. Qed.
Lemma rel_unmod : forall A e, @rel A (unmod e).
Proof. intros. apply rel_lift. Qed.
Lemma rel_some : forall v, rel (some v).
Proof. intros. apply rel_ret. Qed.
Local Hint Resolve rel_throw rel_undef rel_unmod rel_some : rel.

Local Ltac easy_rel := intros; match goal with |- rel ?t => let h := t in idtac end.

Lemma rel_new_list_obj : forall es, rel (new_list_obj es).
Proof. intros. unfold new_list_obj. rauto. Qed.
Local Hint Resolve rel_new_list_obj : rel.
Lemma rel_new_list_ptr : forall es, rel (new_list_ptr es).
Proof. intros. unfold new_list_ptr. rauto. Qed.
Lemma rel_new_var_ptr : forall v, rel (new_var_ptr v).
Proof. intros. unfold new_var_ptr. rauto. Qed.
Lemma rel_obj_copy : forall o, rel (obj_copy o).
Proof. intros. unfold obj_copy. rauto. Qed.
Local Hint Resolve rel_new_list_ptr rel_new_var_ptr rel_obj_copy : rel.
Lemma rel_scope_set : forall s k p, rel (scope_set s k p).
Proof. intros. unfold scope_set. rauto. Qed.
Local Hint Resolve rel_scope_set : rel.
Lemma rel_scope_index : forall s k, rel (scope_index s k).
Proof. intros. unfold scope_index. rauto. Qed.
Lemma rel_new_scope : forall n g m, rel (new_scope n g m).
Proof. intros. unfold new_scope. rauto. Qed.
Lemma rel_push_next : forall s c, rel (push_next s c).
Proof. intros. unfold push_next. rauto. Qed.
Lemma rel_pop_next : forall s, rel (pop_next s).
Proof. intros. unfold pop_next. rauto. Qed.
Local Hint Resolve rel_scope_index rel_new_scope rel_push_next rel_pop_next : rel.
Lemma rel_find_in_modules : forall n g, rel (find_in_modules n g).
Proof. intros. unfold find_in_modules. rauto. Qed.
Local Hint Resolve rel_find_in_modules : rel.
Lemma rel_resolve : forall s e, rel (resolve s e).
Proof. intros. unfold resolve. rauto. Qed.
Lemma rel_throw_scope : forall A m s, @rel A (throw_scope m s).
Proof. intros. unfold throw_scope. rauto. Qed.
Lemma rel_throw_token : forall A m t s, @rel A (throw_token m t s).
Proof. intros. unfold throw_token. rauto. Qed.
Local Hint Resolve rel_resolve rel_throw_scope rel_throw_token : rel.
Lemma rel_set_in_scopes : forall s n v, rel (set_in_scopes s n v).
Proof. intros. unfold set_in_scopes. rauto. Qed.
Lemma rel_check_args : forall n c a s, rel (check_args n c a s).
Proof. intros. unfold check_args. rauto. Qed.
Lemma rel_check_opt_args : forall n c d a s, rel (check_opt_args n c d a s).
Proof. intros. unfold check_opt_args. rauto. Qed.
Lemma rel_arg : forall i a, rel (arg i a).
Proof. intros. unfold arg. rauto. Qed.
Lemma rel_some_var : forall r, rel (some_var r).
Proof. intros. unfold some_var. rauto. Qed.
Lemma rel_write_line : forall t, rel (write_line t).
Proof. intros. unfold write_line. rauto. Qed.
Local Hint Resolve rel_set_in_scopes rel_check_args rel_check_opt_args rel_arg rel_some_var rel_write_line : rel.
Lemma rel_write_fmt : forall f a, rel (write_fmt f a).
Proof. intros. unfold write_fmt. rauto. Qed.
Lemma rel_check_for_function : forall n p s, rel (check_for_function n p s).
Proof. intros. unfold check_for_function. rauto. Qed.
Lemma rel_check_for_list : forall n p s, rel (check_for_list n p s).
Proof. intros. unfold check_for_list. rauto. Qed.
Lemma rel_string_repr : forall a s, rel (string_repr a s).
Proof. intros. unfold string_repr. rauto. Qed.
Local Hint Resolve rel_write_fmt rel_check_for_function rel_check_for_list rel_string_repr : rel.

(** ** The builtin functions of Builtins.v *)
Lemma rel_argv : forall i a, rel (argv i a).
Proof. intros. unfold argv. rauto. Qed.
Lemma rel_argc : forall i a, rel (argc i a).
Proof. intros. unfold argc. rauto. Qed.
Lemma rel_args_str : forall i a, rel (args_str i a).
Proof. intros. unfold args_str. rauto. Qed.
Local Hint Resolve rel_argv rel_argc rel_args_str : rel.
Lemma rel_wrap0 : forall n f a s, rel f -> rel (wrap0 n f a s).
Proof. intros. unfold wrap0. rauto. Qed.
Lemma rel_wrap1 : forall n f a s, (forall v, rel (f v)) -> rel (wrap1 n f a s).
Proof. intros. unfold wrap1. rauto. Qed.
Lemma rel_wrap2 : forall n f a s, (forall v w, rel (f v w)) -> rel (wrap2 n f a s).
Proof. intros. unfold wrap2. rauto. Qed.
Lemma rel_doc_items : forall sel items s, rel (doc_items sel items s).
Proof. induction items; intros; cbn [doc_items]; rauto. Qed.
Local Hint Resolve rel_doc_items : rel.
Lemma rel_search_documentation : forall sel a s, rel (search_documentation sel a s).
Proof. intros. unfold search_documentation. rauto. Qed.
Local Hint Resolve rel_search_documentation : rel.
Lemma rel_dump_vars : forall vs, rel (dump_vars vs).
Proof. induction vs; cbn [dump_vars]; rauto. Qed.
Lemma rel_arith_loop : forall op, (forall a b, rel (op a b)) -> forall args acc, rel (arith_loop op args acc).
Proof. intros op H. induction args; intros; cbn [arith_loop]; rauto. Qed.
Local Hint Resolve rel_dump_vars rel_arith_loop : rel.
Lemma rel_arith_operation : forall op, (forall a b, rel (op a b)) -> forall args, rel (arith_operation op args).
Proof. intros. unfold arith_operation. rauto. Qed.
Lemma rel_v_add : forall a b, rel (v_add a b).
Proof. intros. unfold v_add. rauto. Qed.
Lemma rel_list_result : forall es, rel (list_result es).
Proof. intros. unfold list_result. rauto. Qed.
Lemma rel_elem_at : forall es i, rel (elem_at es i).
Proof. intros. unfold elem_at. rauto. Qed.
Lemma rel_args_list : forall s, rel (args_list s).
Proof. intros. unfold args_list. rauto. Qed.
Lemma rel_dict_arg : forall a, rel (dict_arg a).
Proof. intros. unfold dict_arg. rauto. Qed.
Lemma rel_new_var_ptrs : forall vs, rel (new_var_ptrs vs).
Proof. induction vs; cbn [new_var_ptrs]; rauto. Qed.
Local Hint Resolve rel_wrap0 rel_wrap1 rel_wrap2 rel_arith_operation rel_v_add rel_list_result rel_elem_at
  rel_args_list rel_dict_arg rel_new_var_ptrs : rel.
Lemma rel_int_op : forall f a b, rel (int_op f a b).
Proof. intros. unfold int_op. rauto. Qed.
Lemma rel_cmp_fun : forall n f a s, rel (cmp_fun n f a s).
Proof. intros. unfold cmp_fun. apply rel_wrap2. rauto. Qed.
Lemma rel_b_strfun : forall n f a s, rel (b_strfun n f a s).
Proof. intros. unfold b_strfun. apply rel_wrap1. rauto. Qed.
Lemma rel_math1 : forall n f a s, rel (math1 n f a s).
Proof. intros. unfold math1. rauto. Qed.
Lemma rel_catch_all : forall m, rel m -> rel (catch_all m).
Proof. intros m H. unfold catch_all. apply rel_try; auto. intros e k E. inversion E. apply rel_some. Qed.
Local Hint Resolve rel_int_op rel_cmp_fun rel_b_strfun rel_math1 : rel.
Lemma rel_b_parseint : forall a s, rel (b_parseint a s).
Proof. intros. unfold b_parseint. apply rel_bind; [auto with rel|intros _]. apply rel_catch_all. rauto. Qed.
Lemma rel_b_parsefloat : forall a s, rel (b_parsefloat a s).
Proof. intros. unfold b_parsefloat. apply rel_bind; [auto with rel|intros _]. apply rel_catch_all. rauto. Qed.
Local Hint Resolve rel_b_parseint rel_b_parsefloat : rel.

(** ** The evaluator *)
Record rel_recs (Q : recs) : Prop := {
  rr_eval : forall p s, rel (r_eval Q p s);
  rr_call : forall f a s, rel (r_call Q f a s);
  rr_expand : forall p s, rel (r_expand Q p s);
  rr_expand1 : forall p s, rel (r_expand1 Q p s);
  rr_replace : forall v p e b, rel (r_replace Q v p e b);
  rr_quasi : forall e s, rel (r_quasi Q e s);
  rr_while : forall c b s r, rel (r_while Q c b s r);
  rr_script : forall c s m, rel (r_script Q c s m);
  rr_dbg : forall e, rel (r_dbg Q e) }.

Section Step.
Variable Q : recs.
Hypothesis HQ : rel_recs Q.
Local Hint Resolve rr_eval rr_call rr_expand rr_expand1 rr_replace rr_quasi rr_while rr_script rr_dbg : rel.

Lemma rel_global_of : forall s, rel (global_of s).
Proof. intros. unfold global_of. rauto. Qed.
Lemma rel_resolve_elem : forall p s, rel (resolve_elem p s).
Proof. intros. unfold resolve_elem. rauto. Qed.
Local Hint Resolve rel_global_of rel_resolve_elem : rel.
Lemma rel_resolve_elems : forall ps s, rel (resolve_elems ps s).
Proof. induction ps; intros; cbn [resolve_elems]; rauto. Qed.
Lemma rel_head_function : forall q s, rel (head_function q s).
Proof.
  intros. unfold head_function. apply rel_bind; [auto with rel|intros v]. apply rel_try; [auto with rel|].
  intros e k E. destruct (is_lisp_exn e); inversion E. rauto.
Qed.
Lemma rel_eval_args : forall sp ps s, rel (eval_args Q sp ps s).
Proof. induction ps; intros; cbn [eval_args]; rauto. Qed.
Lemma rel_replace_formals : forall fs ac b s, rel (replace_formals Q fs ac b s).
Proof. induction fs; intros; cbn [replace_formals]; rauto. Qed.
Local Hint Resolve rel_resolve_elems rel_head_function rel_eval_args rel_replace_formals : rel.
Lemma rel_replace_formal_arguments : forall fs ac b s, rel (replace_formal_arguments Q fs ac b s).
Proof. intros. unfold replace_formal_arguments. rauto. Qed.
Lemma rel_replace_symbol : forall sy v e m, rel (replace_symbol Q sy v e m).
Proof. induction e; intros; cbn [replace_symbol]; rauto. Qed.
Local Hint Resolve rel_replace_formal_arguments rel_replace_symbol : rel.
Lemma rel_eval_list : forall h t s, rel (eval_list Q h t s).
Proof. intros. unfold eval_list. rauto. Qed.
Local Hint Resolve rel_eval_list : rel.
Lemma rel_eval_ast : forall p s, rel (eval_ast Q p s).
Proof. intros. unfold eval_ast. rauto. Qed.
Lemma rel_expand_loop : forall p s, rel (expand_loop Q p s).
Proof. intros. unfold expand_loop. rauto. Qed.
Lemma rel_convert_list : forall p, rel (convert_list p).
Proof. intros. unfold convert_list. rauto. Qed.
Local Hint Resolve rel_convert_list : rel.
Lemma rel_expand_elems : forall ps s, rel (expand_elems Q ps s).
Proof. induction ps; intros; cbn [expand_elems]; rauto. Qed.
Local Hint Resolve rel_expand_elems : rel.
Lemma rel_expand_once : forall p s, rel (expand_once Q p s).
Proof. intros. unfold expand_once. rauto. Qed.
Lemma rel_eval_arg_if_needed : forall p s, rel (eval_arg_if_needed Q p s).
Proof. intros. unfold eval_arg_if_needed. rauto. Qed.
Local Hint Resolve rel_eval_arg_if_needed : rel.
Lemma rel_def_helper : forall n t a s, rel (def_helper Q n t a s).
Proof. intros. unfold def_helper. rauto. Qed.
Lemma rel_import_one : forall p s r, rel (import_one Q p s r).
Proof. intros. unfold import_one. rauto. Qed.
Local Hint Resolve rel_def_helper rel_import_one : rel.
Lemma rel_import_loop : forall ps s r, rel (import_loop Q ps s r).
Proof. induction ps; intros; cbn [import_loop]; rauto. Qed.
Lemma rel_copy_ptr : forall p, rel (copy_ptr p).
Proof. intros. unfold copy_ptr. rauto. Qed.
Local Hint Resolve rel_import_loop rel_copy_ptr : rel.
Lemma rel_map_loop : forall f es s, rel (map_loop Q f es s).
Proof. induction es; intros; cbn [map_loop]; rauto. Qed.
Lemma rel_reduce_loop : forall f es acc s, rel (reduce_loop Q f es acc s).
Proof. induction es; intros; cbn [reduce_loop]; rauto. Qed.
Lemma rel_bool_loop : forall op args s acc, rel (bool_loop Q op args s acc).
Proof. induction args; intros; cbn [bool_loop]; rauto. Qed.
Lemma rel_run_setter : forall lv p, rel (run_setter lv p).
Proof. intros. unfold run_setter. rauto. Qed.
Lemma rel_quasi_items : forall es s, rel (quasi_items Q es s).
Proof. induction es; intros; cbn [quasi_items]; rauto. Qed.
Local Hint Resolve rel_map_loop rel_reduce_loop rel_bool_loop rel_run_setter rel_quasi_items : rel.
Lemma rel_quasi : forall es s, rel (quasi Q es s).
Proof. intros. unfold quasi. rauto. Qed.
Lemma rel_while_loop : forall c b s r, rel (while_loop Q c b s r).
Proof. intros. unfold while_loop. rauto. Qed.
Lemma rel_do_loop : forall a s r, rel (do_loop Q a s r).
Proof. induction a; intros; cbn [do_loop]; rauto. Qed.
Lemma rel_nil_ptrs : forall n, rel (nil_ptrs n).
Proof. induction n; cbn [nil_ptrs]; rauto. Qed.
Lemma rel_bind_formals : forall f a c, rel (bind_formals f a c).
Proof. induction f; intros; cbn [bind_formals]; rauto. Qed.
Local Hint Resolve rel_do_loop rel_nil_ptrs rel_bind_formals : rel.
Lemma rel_call_closure : forall n m fa ds a ls, rel (call_closure Q n m fa ds a ls).
Proof.
  intros. unfold call_closure. rauto.
  apply rel_try; [auto with rel|]. intros e k E. destruct e; inversion E; rauto.
Qed.
Lemma rel_update_doc : forall a s, rel (update_doc a s).
Proof. intros. unfold update_doc. rauto. Qed.
Lemma rel_global_function : forall g n, rel (global_function g n).
Proof. intros. unfold global_function. rauto. Qed.
Local Hint Resolve rel_call_closure rel_update_doc rel_global_function : rel.
Lemma rel_defn_helper : forall n a s, rel (defn_helper Q n a s).
Proof. intros. unfold defn_helper. rauto. Qed.
Local Hint Resolve rel_defn_helper : rel.
Lemma rel_call_builtin : forall b a s, rel (call_builtin Q b a s).
Proof.
  intros b a s. destruct b; cbn [call_builtin];
    try solve [auto 3 with rel];
    match goal with |- rel (?f _ _ _) => unfold f | |- rel (?f _ _) => unfold f end; rauto;
    try (first [apply rel_wrap0 | apply rel_wrap1]; rauto).
Qed.
Local Hint Resolve rel_call_builtin : rel.
Lemma rel_call : forall f a s, rel (call Q f a s).
Proof. intros. unfold call. rauto. Qed.
Lemma rel_load_tree : forall t, rel (load_tree t).
Proof.
  fix IH 1. intros [tk|n|ts]; cbn [load_tree]; [rauto|rauto|].
  apply rel_bind; [|auto with rel].
  induction ts as [|t ts IHts]; [auto with rel|].
  apply rel_bind; [apply IH|intro p]. apply rel_bind; [apply IHts|intros ps]. auto with rel.
Qed.
Local Hint Resolve rel_load_tree : rel.
Lemma rel_lisp_eval : forall t o c s m, rel (lisp_eval Q t o c s m).
Proof. intros. unfold lisp_eval. rauto. Qed.
Lemma rel_step_with : forall d, (forall e, rel (d e)) -> rel_recs (step_with Q d).
Proof.
  intros d Hd. constructor; intros; cbn [step_with r_eval r_call r_expand r_expand1 r_replace r_quasi r_while r_script r_dbg].
  - apply rel_eval_ast. - apply rel_call. - apply rel_expand_loop. - apply rel_expand_once.
  - apply rel_replace_symbol. - apply rel_quasi. - apply rel_while_loop. - apply rel_lisp_eval. - apply Hd.
Qed.
Lemma rel_no_debugger : forall e, rel (no_debugger e).
Proof. intros []; cbn [no_debugger]; auto with rel. Qed.
Lemma rel_step : rel_recs (step Q).
Proof. exact (rel_step_with no_debugger rel_no_debugger). Qed.
End Step.

Theorem rel_run : forall n, rel_recs (run n).
Proof.
  induction n as [|n IH]; [|apply rel_step; exact IH].
  constructor; intros; first [apply rel_no_debugger|apply rel_lift].
Qed.

Lemma rel_eval_script : forall n tr oe c m, rel (eval_script n tr oe c m).
Proof. intros. apply rel_lisp_eval. apply rel_run. Qed.
Lemma rel_save_eval : forall n v tr oe c m, rel (save_eval n v tr oe c m).
Proof.
  intros. unfold save_eval. apply rel_try; [apply rel_eval_script|].
  intros e k E. destruct e; inversion E; auto with rel. unfold report. rauto.
Qed.
End Rel.

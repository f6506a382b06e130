(** Proofs about spliced arguments, apply, eval, evalstr and places of lists. *)
Require Import String Ascii List ZArith Bool Lia.
Require Import PArith FMapPositive.
From Verif Require Import Base CppString Num Token Value State Show ScopeOps Builtins Eval LispTop SpecRun SpecVal SpecList SpecForm SpecCalc SpecCall
  FuelProofs RunProofs BuiltinProofs ListProofs FormProofs ClosProofs CalcProofs QuoteProofs ErrProofs MixProofs.
Import ListNotations.

(** ** Splicing *)
Lemma splice_seen : forall st v es, to_splice st v es -> (match v_unq v with UnqSplice => is_list v | _ => false end) = true /\ list_value v st = Val es.
Proof.
  intros st v es (U & H). rewrite U. assert (A : list_arg st (P 1 (OVar v)) es) by (exists 1%positive, v; split; [reflexivity|exact H]).
  destruct (list_kinds _ _ _ A) as (i & w & E & L & V & _). injection E as <- <-. auto.
Qed.
Lemma eval_args_spliced : forall s ps st qs st', spliced s ps st qs st' -> exists n, forall m, (n <= m)%nat -> eval_args (run m) false ps s st = (Val qs, st').
Proof.
  intros s ps st qs st' H.
  induction H as [i v ps st es T|i l ps st v st1 q st2 es E (-> & ->) T|i v ps st qs st' S H (n & IH)|i l ps st v st1 st2 q qs st3 E S (-> & ->) H (n & IH)].
  - exists 0%nat. intros m L. destruct (splice_seen _ _ _ T) as (U & V). cbn [eval_args]. unfold bind, lift. cbn [deref obj_is_list andb]. unfold ret at 1. cbn [deref].
    rewrite U. unfold reads. cbn [vref_obj]. rewrite V. reflexivity.
  - destruct E as (k & E & N). exists k. intros m L. destruct (splice_seen _ _ _ T) as (U & V). cbn [eval_args]. unfold bind at 1, lift at 1. cbn [deref obj_is_list negb andb].
    unfold bind at 1. unfold bind at 1. rewrite (ends_at _ _ _ _ _ _ m (mono_eval _ _) E N) by lia.
    unfold bind at 1, some_var, ret at 1. unfold new_var_ptr, new_ptr. unfold bind at 1, lift at 1. cbn [deref]. rewrite U.
    unfold bind, reads. cbn [vref_obj]. rewrite V. reflexivity.
  - exists n. intros m L. cbn [eval_args]. unfold bind, lift. cbn [deref obj_is_list andb]. unfold ret at 1. cbn [deref]. rewrite (not_spliced _ S), IH by exact L. reflexivity.
  - destruct E as (k & E & N). exists (Nat.max n k). intros m L. cbn [eval_args]. unfold bind at 1, lift at 1. cbn [deref obj_is_list negb andb].
    unfold bind at 1. unfold bind at 1. rewrite (ends_at _ _ _ _ _ _ m (mono_eval _ _) E N) by lia.
    unfold bind at 1, some_var, ret at 1. unfold new_var_ptr, new_ptr. unfold bind at 1, lift at 1. cbn [deref]. rewrite (not_spliced _ S).
    unfold bind. rewrite IH by lia. reflexivity.
Qed.
Lemma spliced_call : forall st s p name tok args args0 args1 st1 f o st', form st p name tok args -> means st s name f -> fn_sp f = false ->
  Forall2 (looked_up st s) args args0 -> spliced s args0 (noted st s tok) args1 st1 ->
  evals p s st o st' <-> calls f args1 s st1 o st'.
Proof.
  intros st s p name tok args args0 args1 st1 f o st' F M SP LU EV. destruct (eval_args_spliced _ _ _ _ _ EV) as (k & K).
  assert (E : forall n, (k <= n)%nat -> r_eval (run (S n)) p s st = r_call (run n) f args1 s st1).
  { intros n L. rewrite (form_eval n _ _ _ _ _ _ args0 _ F M) by (rewrite SP; exact LU). rewrite SP. unfold bind. rewrite K by exact L. reflexivity. }
  split; intros (n & H & N).
  - exists (Nat.max k n). split; [|exact N]. rewrite <- E by lia. apply (ends_at _ _ _ _ _ n _ (mono_eval p s) H N). lia.
  - exists (S (Nat.max k n)). split; [|exact N]. rewrite E by lia. apply (ends_at _ _ _ _ _ n _ (mono_call f args1 s) H N). lia.
Qed.

(** ** apply *)
Lemma builtin_from : forall name b (h : nat -> M result) args s st st1 k, builtin_code name = Some b -> monotone h ->
  (forall n, (k <= n)%nat -> call_builtin (run n) b args s st = h n st1) -> forall o st', builtin_call name args s st o st' <-> ends_with h st1 o st'.
Proof.
  intros name b h args s st st1 k C MH E o st'. rewrite <- (ends_from _ _ h st st1 k (mono_builtin b args s) MH E). split.
  - intro H. apply (builtin_code_call _ _ _ _ _ _ _ C H).
  - intros (n & H & N). exact (builtin_calls n _ _ _ _ _ _ _ C H N).
Qed.
Lemma function_value_fn : forall v f st, is_fn v f -> function_value v st = Val f.
Proof. intros v f st [T V]. unfold function_value. rewrite (is_ty_of _ _ _ T). cbn [ltype_eqb]. rewrite V. reflexivity. Qed.
Lemma apply_calls : forall a p s st fv f st1 es, evals a s st (Val (Some fv)) st1 -> is_fn fv f -> list_arg st1 p es ->
  forall o st', builtin_call $"apply" [a; p] s st o st' <-> calls f es s st1 o st'.
Proof.
  intros a p s st fv f st1 es (k & E & N) F A. destruct (list_kinds _ _ _ A) as (i & v & -> & L & V & _).
  apply (builtin_from _ BApply _ _ _ _ _ k); [vm_compute; reflexivity|apply mono_call|]. intros n K. cbn [call_builtin]. unfold b_apply, check_args. cbn [length Nat.eqb negb].
  unfold bind, ret at 1, arg, argv. cbn [nth_error]. unfold ret at 1. rewrite (ends_at _ _ _ _ _ _ n (mono_eval _ _) E N K).
  unfold bind, lift, arg. cbn [nth_error]. unfold ret at 1. cbn [vref vref_obj]. rewrite L. unfold reads. rewrite V. unfold some_var, ret. rewrite (function_value_fn _ _ _ F). reflexivity.
Qed.

Lemma apply_start : forall n a p s st o st1, r_eval (run n) a s st = (o, st1) -> call_builtin (run n) BApply [a; p] s st =
  match o with
  | Val fr => bind (lift (vref p)) (fun v => if is_list v then bind (reads (list_value v)) (fun es => bind (some_var fr) (fun fv => bind (reads (function_value fv)) (fun f => r_call (run n) f es s)))
      else throw_scope $"Expected list as arguments in apply" s) st1
  | Throw e => (Throw e, st1) | Undef u => (Undef u, st1) | Unmod w => (Unmod w, st1) | NoFuel => (NoFuel, st1)
  end.
Proof.
  intros n a p s st o st1 E. cbn [call_builtin]. unfold b_apply, check_args. cbn [length Nat.eqb negb].
  unfold bind at 1, ret at 1. unfold bind at 1, arg at 1. cbn [nth_error]. unfold ret at 1. unfold bind at 1. rewrite E. destruct o; reflexivity.
Qed.
Lemma apply_no_list : forall a i v s st r st1, evals a s st (Val r) st1 -> v_ty v <> TList -> v_ty v <> TNil -> printable st1 s ->
  exists e, builtin_call $"apply" [a; P i (OVar v)] s st (Throw (ELisp $"Expected list as arguments in apply" e)) st1.
Proof.
  intros a i v s st r st1 (k & E & N) A B PR. destruct (throw_scope_ok result $"Expected list as arguments in apply" _ _ PR) as (e & T). exists e.
  apply (builtin_calls k _ BApply); [vm_compute; reflexivity| |discriminate]. rewrite (apply_start _ _ _ _ _ _ _ E). unfold bind, lift. cbn [vref vref_obj].
  assert (L : is_list v = false) by (unfold is_list, is_ty; destruct (v_ty v); try congruence; reflexivity). rewrite L. exact T.
Qed.
Lemma apply_fails : forall a p s st o o' st1 es, evals a s st o st1 -> fails o o' -> (forall r, o = Val r -> list_arg st1 p es) -> builtin_call $"apply" [a; p] s st o' st1.
Proof.
  intros a p s st o o' st1 es (k & E & N) F L. assert (NF : o' <> NoFuel) by (destruct o as [[v|]|?|?|?|]; cbn [fails] in F; subst; try contradiction; try discriminate; congruence).
  apply (builtin_calls k _ BApply); [vm_compute; reflexivity| |exact NF]. rewrite (apply_start _ _ _ _ _ _ _ E).
  destruct o as [[v|]|?|?|?|]; cbn [fails] in F; subst; try contradiction; try reflexivity.
  destruct (list_kinds _ _ _ (L _ eq_refl)) as (i & v & -> & IL & V & _). unfold bind, lift. cbn [vref vref_obj]. rewrite IL. unfold reads. rewrite V. reflexivity.
Qed.
Lemma no_cast : forall A v name msg st (a : A), cast_fail v name msg st <> Val a.
Proof. intros A v name msg st a. unfold cast_fail. destruct (string_value v st) as [t|?|?|?|]; try discriminate. cbn [obind]. destruct (Format _ _); discriminate. Qed.
Lemma apply_no_function : forall a p s st v st1 es, evals a s st (Val (Some v)) st1 -> v_ty v <> TFun -> list_arg st1 p es ->
  forall o st', builtin_call $"apply" [a; p] s st o st' -> st' = st1 /\ forall r, o <> Val r.
Proof.
  intros a p s st v st1 es (k & E & N) T A o st' H. destruct (builtin_code_call $"apply" BApply _ _ _ _ _ ltac:(vm_compute; reflexivity) H) as (n & C & NF).
  apply (ends_at _ _ _ _ _ n (Nat.max k n) (mono_builtin _ _ _)) in C; [|exact NF|lia].
  assert (E' := ends_at _ _ _ _ _ _ (Nat.max k n) (mono_eval _ _) E N ltac:(lia)). rewrite (apply_start _ _ _ _ _ _ _ E') in C.
  destruct (list_kinds _ _ _ A) as (i & w & -> & IL & V & _). unfold bind, lift in C. cbn [vref vref_obj] in C. rewrite IL in C. unfold reads in C. rewrite V in C. unfold some_var, ret in C.
  unfold function_value in C. rewrite (is_ty_of v (v_ty v) TFun eq_refl) in C. destruct (ltype_eqb (v_ty v) TFun) eqn:Q; [destruct (v_ty v); try discriminate; congruence|].
  destruct (cast_fail v $"function" $"not found" st1) as [f|?|?|?|] eqn:CF; [exfalso; exact (no_cast _ _ _ _ _ _ CF)| | | |]; injection C as <- <-; (split; [reflexivity|discriminate]).
Qed.

(** ** evalstr *)
Lemma mono_in : forall s c m, monotone (fun n => lisp_eval (run n) false false c s m).
Proof. intros s c m x y XY. exact (lr_script _ _ (le_run (S x) (S y) ltac:(lia)) c s m). Qed.
Lemma evalstr_start : forall n i v t s st sc, is_str v t -> scope_at st s = Some sc -> call_builtin (run (S n)) BEvalStr [P i (OVar v)] s st =
  bind (lisp_eval (run n) false false t s ($"<evalstr>:" ++ s_module sc ++ $":" ++ t)) (fun r => bind (mod_scope s (set_ineval false)) (fun _ => bind (mod_scope s (set_module (s_module sc))) (fun _ => ret r)))
    (scope_becomes s (set_ineval true sc) st).
Proof.
  intros n i v t s st sc (T & V) H. cbn [call_builtin]. unfold b_evalstr, check_args. cbn [length Nat.eqb negb].
  unfold bind at 1, ret at 1. unfold bind at 1, argv, arg, bind at 1. cbn [nth_error]. unfold ret at 1, lift at 1. cbn [vref vref_obj].
  unfold bind at 1, reads at 1. rewrite (get_at _ _ _ H). unfold bind at 1, mod_scope at 1, bind at 1, reads at 1. rewrite (get_at _ _ _ H). unfold put_scope at 1. rewrite V.
  unfold bind at 1, reads at 1. cbn [obj_str]. reflexivity.
Qed.
Lemma evalstr_value : forall i v t s st sc r st1 sc1, is_str v t -> scope_at st s = Some sc ->
  runs_in s t ($"<evalstr>:" ++ s_module sc ++ $":" ++ t) (scope_becomes s (set_ineval true sc) st) (Val r) st1 -> scope_at st1 s = Some sc1 ->
  builtin_call $"evalstr" [P i (OVar v)] s st (Val r) (scope_becomes s (set_module (s_module sc) (set_ineval false sc1)) st1).
Proof.
  intros i v t s st sc r st1 sc1 T H (n & E & N) H1. apply (builtin_calls (S n) _ BEvalStr); [vm_compute; reflexivity| |discriminate].
  rewrite (evalstr_start _ _ _ _ _ _ _ T H). unfold bind at 1. rewrite E. unfold bind at 1, mod_scope at 1, bind at 1, reads at 1. rewrite (get_at _ _ _ H1). unfold put_scope at 1.
  set (st2 := with_scopes _ st1). assert (H2 : scope_at st2 s = Some (set_ineval false sc1)) by (unfold st2; rewrite find_scope_add, Pos.eqb_refl; reflexivity).
  unfold bind at 1, mod_scope at 1, bind at 1, reads at 1. rewrite (get_at _ _ _ H2). unfold put_scope at 1. unfold ret, st2, scope_becomes. cbn [st_scopes with_scopes].
  rewrite pm_add_add. destruct st1; reflexivity.
Qed.
Lemma evalstr_fails : forall i v t s st sc o st1, is_str v t -> scope_at st s = Some sc ->
  runs_in s t ($"<evalstr>:" ++ s_module sc ++ $":" ++ t) (scope_becomes s (set_ineval true sc) st) o st1 -> (forall r, o <> Val r) ->
  builtin_call $"evalstr" [P i (OVar v)] s st o st1.
Proof.
  intros i v t s st sc o st1 T H (n & E & N) F. apply (builtin_calls (S n) _ BEvalStr); [vm_compute; reflexivity| |exact N].
  rewrite (evalstr_start _ _ _ _ _ _ _ T H). unfold bind at 1. rewrite E. destruct o as [r|?|?|?|]; try reflexivity. exfalso. exact (F r eq_refl).
Qed.
Lemma evalstr_ends : forall i v t s st sc o st', is_str v t -> scope_at st s = Some sc -> builtin_call $"evalstr" [P i (OVar v)] s st o st' ->
  exists o1 st1, runs_in s t ($"<evalstr>:" ++ s_module sc ++ $":" ++ t) (scope_becomes s (set_ineval true sc) st) o1 st1.
Proof.
  intros i v t s st sc o st' T H B. destruct (builtin_code_call $"evalstr" BEvalStr _ _ _ _ _ ltac:(vm_compute; reflexivity) B) as (n & C & N).
  apply (ends_at _ _ _ _ _ n (S n) (mono_builtin _ _ _)) in C; [|exact N|lia]. rewrite (evalstr_start _ _ _ _ _ _ _ T H) in C. unfold bind at 1 in C.
  destruct (lisp_eval (run n) false false t s _ _) as [o1 st1] eqn:E. exists o1, st1. exists n. split; [exact E|]. intros ->. injection C as <- <-. congruence.
Qed.
Lemma runs_main : forall code m st o st', runs_in main_sid code m st o st' <-> runs false false code m st o st'.
Proof. intros. reflexivity. Qed.

(** ** setf of places *)
Lemma asked_scope : forall st s sc u, scope_at st s = Some sc -> scope_at (asked st s) u = if Pos.eqb u s then Some (set_needlv true sc) else scope_at st u.
Proof. intros st s sc u H. unfold asked. rewrite H. apply find_scope_add. Qed.
Lemma asked_vec : forall st s l, vec_at (asked st s) l = vec_at st l.
Proof. intros st s l. unfold asked. destruct (scope_at st s); reflexivity. Qed.
Lemma asked_var : forall st s u n, var_at (asked st s) u n = var_at st u n.
Proof.
  intros st s u n. unfold asked. destruct (scope_at st s) as [sc|] eqn:H; [|reflexivity]. unfold var_at, scope_becomes. rewrite find_scope_add.
  destruct (Pos.eqb_spec u s) as [->|_]; [rewrite H; destruct sc; reflexivity|reflexivity].
Qed.
Lemma asked_exists : forall st s u, scope_exists (asked st s) u <-> scope_exists st u.
Proof.
  intros st s u. unfold asked. destruct (scope_at st s) as [sc|] eqn:H; [|reflexivity]. unfold scope_exists, scope_becomes. rewrite find_scope_add.
  destruct (Pos.eqb_spec u s) as [->|_]; [|reflexivity]. split; intros _; eauto.
Qed.
Lemma like_asked : forall st s, like st (asked st s).
Proof.
  intros st s. split; [|split].
  - intros u H. apply asked_exists, H.
  - intros u n _. apply asked_var.
  - intros u a b A. unfold asked. destruct (scope_at st s) as [sc|] eqn:H; [|rewrite A; intros [= <-]; auto]. unfold scope_becomes. rewrite find_scope_add.
    destruct (Pos.eqb_spec u s) as [->|_]; intros B; injection B as <- || rewrite A in B; [|injection B as <-; auto]. rewrite H in A. injection A as <-. destruct sc; auto.
Qed.
Lemma asked_means : forall st s name f, means st s name f -> means (asked st s) s name f.
Proof.
  intros st s name f (sc & gs & i & v & H & G & TR & NM & SE & F).
  assert (HG : scope_at (asked st s) (s_global sc) = Some (if Pos.eqb (s_global sc) s then set_needlv true sc else gs)).
  { rewrite (asked_scope _ _ _ _ H). destruct (Pos.eqb_spec (s_global sc) s) as [E|_]; [reflexivity|exact G]. }
  exists (set_needlv true sc), (if Pos.eqb (s_global sc) s then set_needlv true sc else gs), i, v.
  replace (s_global (set_needlv true sc)) with (s_global sc) by (destruct sc; reflexivity).
  split; [rewrite (asked_scope _ _ _ _ H), Pos.eqb_refl; reflexivity|]. split; [exact HG|]. split.
  { destruct (Pos.eqb_spec (s_global sc) s) as [E|_]; [rewrite E in G; rewrite H in G; injection G as <-; destruct sc; exact TR|exact TR]. }
  split; [|split; [apply (like_sees _ _ _ _ _ (like_asked st s) SE)|exact F]].
  destruct NM as (X & NM). split; [apply asked_exists, X|]. destruct NM as [E|(j & ms & E & M & V)]; [left; rewrite asked_var; exact E|right; exists j, ms].
  rewrite !asked_var. split; [exact E|]. split; [apply asked_exists, M|exact V].
Qed.
Lemma asked_form : forall st s p name tok args, form st p name tok args -> form (asked st s) p name tok args.
Proof.
  intros st s p name tok args (j & v & X & R). exists j, v. split; [|exact R]. destruct X as [(i & l & E & V)|(i & w & l & E & T & V & W)].
  - left. exists i, l. rewrite asked_vec. auto.
  - right. exists i, w, l. split; [exact E|]. split; [exact T|]. rewrite asked_vec. auto.
Qed.
Lemma asked_looked : forall st s ps qs, Forall2 (looked_up st s) ps qs -> Forall2 (looked_up (asked st s) s) ps qs.
Proof.
  intros st s ps qs H. induction H as [|p q ps qs A _ IH]; constructor; [|exact IH].
  destruct A; [eapply lu_var; [eassumption|apply (like_sees _ _ _ _ _ (like_asked st s)); assumption]|eapply lu_unknown; [eassumption|apply (like_sees _ _ _ _ _ (like_asked st s)); assumption]|apply lu_value; assumption|apply lu_list].
Qed.
Lemma setf_general : forall n i la a1 s st sc w st1 sc1 v st3 name, scope_at st s = Some sc ->
  r_eval (run n) (P i (OList la)) s (asked st s) = (Val (Some w), st1) -> scope_at st1 s = Some sc1 ->
  var_str w (scope_becomes s (set_needlv (s_needlv sc) sc1) st1) = Val name ->
  r_eval (run n) a1 s (scope_becomes s (set_needlv (s_needlv sc) sc1) st1) = (Val (Some v), st3) ->
  b_setf (run n) [P i (OList la); a1] s st =
  bind (if is_ty TLValue w then match v_val w with Some (OLValue lv) => run_setter lv (P (st_nid st3) (OVar v)) | Some _ => undef UBTag | None => undef UBTag end
        else set_in_scopes s name (P (st_nid st3) (OVar v))) (fun _ => some v) (with_nid (Pos.succ (st_nid st3)) st3).
Proof.
  intros n i la a1 s st sc w st1 sc1 v st3 name H E H1 NM E1. unfold b_setf, check_args. cbn [length Nat.eqb negb].
  unfold bind at 1, ret at 1. unfold bind at 1, reads at 1. rewrite (get_at _ _ _ H). unfold bind at 1, mod_scope at 1, bind at 1, reads at 1. rewrite (get_at _ _ _ H). unfold put_scope at 1.
  unfold bind at 1, arg at 1. cbn [nth_error]. unfold ret at 1. unfold bind at 1, eval_arg_if_needed at 1, bind at 1, lift at 1. cbn [deref obj_is_list].
  unfold asked in E. rewrite H in E. unfold scope_becomes in E at 1. rewrite E. unfold bind at 1, mod_scope at 1, bind at 1, reads at 1. rewrite (get_at _ _ _ H1). unfold put_scope at 1.
  fold (scope_becomes s (set_needlv (s_needlv sc) sc1) st1). set (st2 := scope_becomes _ _ _) in *. unfold bind at 1, reads at 1. rewrite NM.
  unfold bind at 1, arg at 1. cbn [nth_error]. unfold ret at 1. unfold bind at 1. rewrite E1. unfold some_var at 1, bind at 1, ret at 1. unfold some_var at 1, bind at 1, ret at 1.
  unfold bind at 1, new_var_ptr, new_ptr. reflexivity.
Qed.
Lemma place_fails : forall st s p tok i la a1 o st1, form st p $"setf" tok [P i (OList la); a1] -> standard st s $"setf" -> plain a1 ->
  evals (P i (OList la)) s (asked (noted st s tok) s) o st1 -> (forall r, o <> Val r) -> evals p s st o st1.
Proof.
  intros st s p tok i la a1 o st1 F S PL (n & E & N) FA.
  apply (special_builtin _ _ _ _ _ _ BSetf F S); [vm_compute; reflexivity|vm_compute; reflexivity|apply Forall_cons; [exact Logic.I|apply Forall_cons; [exact PL|constructor]]|].
  exists n. split; [|exact N]. destruct (standard_scope st s _ tok S) as (sc & H). cbn [call_builtin]. unfold b_setf, check_args. cbn [length Nat.eqb negb].
  unfold bind at 1, ret at 1. unfold bind at 1, reads at 1. rewrite (get_at _ _ _ H). unfold bind at 1, mod_scope at 1, bind at 1, reads at 1. rewrite (get_at _ _ _ H). unfold put_scope at 1.
  unfold bind at 1, arg at 1. cbn [nth_error]. unfold ret at 1. unfold bind at 1, eval_arg_if_needed at 1, bind at 1, lift at 1. cbn [deref obj_is_list].
  unfold asked in E. rewrite H in E. unfold scope_becomes in E at 1. rewrite E. destruct o as [r|?|?|?|]; try reflexivity. exfalso. exact (FA r eq_refl).
Qed.
Lemma setf_at : forall st s p tok i la a1 w st1 sc sc1 v st3 name, form st p $"setf" tok [P i (OList la); a1] -> standard st s $"setf" -> plain a1 ->
  scope_at (noted st s tok) s = Some sc -> evals (P i (OList la)) s (asked (noted st s tok) s) (Val (Some w)) st1 -> scope_at st1 s = Some sc1 ->
  var_str w (scope_becomes s (set_needlv (s_needlv sc) sc1) st1) = Val name ->
  evals a1 s (scope_becomes s (set_needlv (s_needlv sc) sc1) st1) (Val (Some v)) st3 -> forall o st',
  bind (if is_ty TLValue w then match v_val w with Some (OLValue lv) => run_setter lv (P (st_nid st3) (OVar v)) | Some _ => undef UBTag | None => undef UBTag end
        else set_in_scopes s name (P (st_nid st3) (OVar v))) (fun _ => some v) (with_nid (Pos.succ (st_nid st3)) st3) = (o, st') -> o <> NoFuel ->
  evals p s st o st'.
Proof.
  intros st s p tok i la a1 w st1 sc sc1 v st3 name F S PL H (n & E & N) H1 NM (m & E1 & N1) o st' B NF.
  apply (special_builtin _ _ _ _ _ _ BSetf F S); [vm_compute; reflexivity|vm_compute; reflexivity|apply Forall_cons; [exact Logic.I|apply Forall_cons; [exact PL|constructor]]|].
  exists (Nat.max n m). split; [|exact NF]. cbn [call_builtin].
  apply (ends_at _ _ _ _ _ n (Nat.max n m) (mono_eval _ _)) in E; [|exact N|lia]. apply (ends_at _ _ _ _ _ m (Nat.max n m) (mono_eval _ _)) in E1; [|exact N1|lia].
  rewrite (setf_general _ _ _ _ _ _ _ _ _ _ _ _ _ H E H1 NM E1). exact B.
Qed.
(** (setf expr value) where the expression gives a name. *)
Lemma setf_computed : forall st s p tok i la a1 w st1 sc sc1 v st3 name t, form st p $"setf" tok [P i (OList la); a1] -> standard st s $"setf" -> plain a1 ->
  scope_at (noted st s tok) s = Some sc -> evals (P i (OList la)) s (asked (noted st s tok) s) (Val (Some w)) st1 -> scope_at st1 s = Some sc1 ->
  is_sym w name \/ is_str w name -> name <> [] ->
  evals a1 s (scope_becomes s (set_needlv (s_needlv sc) sc1) st1) (Val (Some v)) st3 -> assigns st3 s name t ->
  exists st', evals p s st (Val (Some v)) st' /\ var_becomes st3 st' t name v.
Proof.
  intros st s p tok i la a1 w st1 sc sc1 v st3 name t F S PL H E H1 NM NE E1 A. destruct (set_assigns st3 s name t v NE A) as (st' & X & B).
  exists st'. split; [|exact B]. eapply setf_at; try eassumption; [destruct NM as [NM|(T & V)]; [apply var_str_sym; exact NM|apply var_str_str; split; assumption]| |discriminate].
  assert (TL : is_ty TLValue w = false) by (destruct NM as [(T & _)|(T & _)]; rewrite (is_ty_of _ _ _ T); reflexivity). rewrite TL. unfold bind. rewrite X. reflexivity.
Qed.
Lemma place_value : forall name args w pos s st sc l es, place_args name args w pos -> scope_at st s = Some sc -> s_needlv sc = true -> is_list_at st w l es ->
  exists lv, builtin_call name args s st (Val (Some (vlvalue lv))) st /\
    forall np st1, run_setter lv np st1 = (let! l' := reads (list_loc w) in match l' with None => undef UBIndex | Some l' => let! es1 := reads (get_vec l') in
      if (pos (length es1) <? 0)%Z || (Z.of_nat (length es1) <=? pos (length es1))%Z then undef UBIndex else put_vec l' (replace_at (Z.to_nat (pos (length es1))) np es1) end) st1.
Proof.
  intros name args w pos s st sc l es PA H LV W. destruct W as (T & _). destruct PA as [i w|i w|i w j k z K].
  - exists (LvFirst (P i (OVar w))). split; [|intros; reflexivity]. apply (builtin_calls 0 _ BFirst); [vm_compute; reflexivity| |discriminate]. cbn [call_builtin]. unfold b_first, check_args, arg. cbn [length Nat.eqb negb nth_error].
    unfold bind, ret, lift, reads. cbn [vref vref_obj]. rewrite (is_ty_of _ _ _ T). change (ltype_eqb TList TString) with false. cbv iota beta. rewrite (get_at _ _ _ H), LV. reflexivity.
  - exists (LvLast (P i (OVar w))). split; [|intros; reflexivity]. apply (builtin_calls 0 _ BLast); [vm_compute; reflexivity| |discriminate]. cbn [call_builtin]. unfold b_last, check_args, arg. cbn [length Nat.eqb negb nth_error].
    unfold bind, ret, lift, reads. cbn [vref vref_obj]. rewrite (is_ty_of _ _ _ T). change (ltype_eqb TList TString) with false. cbv iota beta. rewrite (get_at _ _ _ H), LV. reflexivity.
  - exists (LvNth (P i (OVar w)) z). split; [|intros; reflexivity]. apply (builtin_calls 0 _ BNth); [vm_compute; reflexivity| |discriminate]. cbn [call_builtin]. unfold b_nth, check_args, argv, arg. cbn [length Nat.eqb negb nth_error].
    unfold bind, ret, lift, reads. cbn [vref vref_obj]. rewrite (int_value_int _ _ _ K), (is_ty_of _ _ _ T). change (ltype_eqb TList TString) with false. cbv iota beta. rewrite (get_at _ _ _ H), LV. reflexivity.
Qed.

Lemma noted_back : forall st s tok sc, scope_at st s = Some sc ->
  exists sc1, scope_at (noted (asked st s) s tok) s = Some sc1 /\ s_needlv sc1 = true /\
    scope_becomes s (set_needlv (s_needlv sc) sc1) (noted (asked st s) s tok) = noted st s tok.
Proof.
  intros st s tok sc H. assert (HA := asked_scope st s sc s H). rewrite Pos.eqb_refl in HA. unfold noted. destruct tok as [t|].
  - rewrite HA, H. exists (set_token (Some t) (set_needlv true sc)). split; [rewrite find_scope_add, Pos.eqb_refl; reflexivity|]. split; [destruct sc; reflexivity|].
    unfold scope_becomes, asked. rewrite H. unfold scope_becomes. cbn [st_scopes with_scopes]. rewrite !pm_add_add. destruct st, sc; reflexivity.
  - exists (set_needlv true sc). split; [exact HA|]. split; [destruct sc; reflexivity|]. unfold scope_becomes, asked. rewrite H. unfold scope_becomes. cbn [st_scopes with_scopes].
    rewrite pm_add_add. replace (set_needlv (s_needlv sc) (set_needlv true sc)) with sc by (destruct sc; reflexivity). apply scope_restore in H. destruct st. exact H.
Qed.
Lemma place_settled : forall name args w pos, place_args name args w pos -> settled w -> forall s st, evaluated s args st args st.
Proof.
  intros name args w pos PA S s st. destruct PA as [i w|i w|i w j k z K]; repeat (apply ev_value; [assumption|]); try apply ev_nil.
  apply ev_value; [right; destruct K as (-> & _); split; discriminate|]. apply ev_value; [exact S|apply ev_nil].
Qed.
Lemma place_ordinary : forall name args w pos, place_args name args w pos -> option_map fn_sp (builtin_fn name) = Some false.
Proof. intros name args w pos []; vm_compute; reflexivity. Qed.
Lemma setf_place_run : forall st s p tok i la a1 name tok0 args args0 w pos l es0 v st1, form st p $"setf" tok [P i (OList la); a1] -> standard st s $"setf" -> plain a1 ->
  form st (P i (OList la)) name tok0 args -> standard st s name -> Forall2 (looked_up st s) args args0 -> place_args name args0 w pos -> settled w -> is_list_at st w l es0 ->
  evals a1 s (noted (noted st s tok) s tok0) (Val (Some v)) st1 -> forall o st',
  bind (let! l' := reads (list_loc w) in match l' with None => undef UBIndex | Some l' => let! es1 := reads (get_vec l') in
      if (pos (length es1) <? 0)%Z || (Z.of_nat (length es1) <=? pos (length es1))%Z then undef UBIndex else put_vec l' (replace_at (Z.to_nat (pos (length es1))) (P (st_nid st1) (OVar v)) es1) end)
    (fun _ => some v) (with_nid (Pos.succ (st_nid st1)) st1) = (o, st') -> o <> NoFuel -> evals p s st o st'.
Proof.
  intros st s p tok i la a1 name tok0 args args0 w pos l es0 v st1 F S PL F0 S0 LU PA SW W E1 o st' B NF.
  destruct (standard_scope st s _ tok S) as (sc & H). set (st0 := noted st s tok) in *.
  destruct (noted_back st0 s tok0 sc H) as (sc1 & H1 & LV & BACK).
  assert (F1 : form (asked st0 s) (P i (OList la)) name tok0 args) by (apply asked_form, (form_changes no_var st); [apply changes_noted|exact F0]).
  assert (S1 : standard (asked st0 s) s name). { destruct (noted_standard st s tok name S0) as (f & B0 & M). exists f. split; [exact B0|]. apply asked_means, M. }
  assert (LU1 : Forall2 (looked_up (asked st0 s) s) args args0).
  { apply asked_looked. clear - LU. unfold st0. induction LU as [|x y xs ys A _ IH]; constructor; [|exact IH].
    destruct A; [eapply lu_var; [eassumption|apply (like_sees _ _ _ _ _ (like_noted st s tok)); assumption]|eapply lu_unknown; [eassumption|apply (like_sees _ _ _ _ _ (like_noted st s tok)); assumption]|apply lu_value; assumption|apply lu_list]. }
  assert (W1 : is_list_at (noted (asked st0 s) s tok0) w l es0).
  { destruct W as (T & V & X). split; [exact T|]. split; [exact V|]. rewrite noted_vec, asked_vec. unfold st0. rewrite noted_vec. exact X. }
  destruct (place_value name args0 w pos s (noted (asked st0 s) s tok0) sc1 l es0 PA H1 LV W1) as (lv & BC & RS).
  assert (EP : evals (P i (OList la)) s (asked st0 s) (Val (Some (vlvalue lv))) (noted (asked st0 s) s tok0)).
  { apply (ordinary_builtin (asked st0 s) s _ name tok0 args args0 args0 (noted (asked st0 s) s tok0) _ _ F1 S1 (place_ordinary _ _ _ _ PA) LU1); [apply (place_settled _ _ _ _ PA SW)|exact BC]. }
  eapply (setf_at st s p tok i la a1 (vlvalue lv) _ sc sc1 v st1 $"?" F S PL H EP H1); [reflexivity|rewrite BACK; exact E1| |exact NF].
  change (is_ty TLValue (vlvalue lv)) with true. cbn [v_val vlvalue mkv]. unfold bind in *. rewrite RS. exact B.
Qed.
Lemma setf_place : forall st s p tok i la a1 name tok0 args args0 w pos l es0 v st1 es es', form st p $"setf" tok [P i (OList la); a1] -> standard st s $"setf" -> plain a1 ->
  form st (P i (OList la)) name tok0 args -> standard st s name -> Forall2 (looked_up st s) args args0 -> place_args name args0 w pos -> settled w -> is_list_at st w l es0 ->
  evals a1 s (noted (noted st s tok) s tok0) (Val (Some v)) st1 -> vec_at st1 l = Some es -> replaced es (pos (length es)) (P (st_nid st1) (OVar v)) es' ->
  exists st', evals p s st (Val (Some v)) st' /\ list_becomes st1 st' l es'.
Proof.
  intros st s p tok i la a1 name tok0 args args0 w pos l es0 v st1 es es' F S PL F0 S0 LU PA SW W E1 X (a & y & b & EQ & LE & ->).
  eexists. split.
  - eapply setf_place_run; try eassumption; [|discriminate]. destruct W as (T & V & _). unfold bind, reads, list_loc. rewrite T, V. unfold get_vec. cbn [st_vecs with_nid]. fold (vec_at st1 l). rewrite X.
    assert (LN : (length es = length a + Datatypes.S (length b))%nat) by (rewrite EQ, app_length; reflexivity).
    assert (C : ((pos (length es) <? 0)%Z || (Z.of_nat (length es) <=? pos (length es))%Z) = false) by (rewrite <- LE; lia). rewrite C. unfold put_vec, some, ret.
    rewrite <- LE, Nat2Z.id. unfold replace_at. rewrite EQ, firstn_app, firstn_all, Nat.sub_diag. cbn [firstn].
    replace (skipn (Datatypes.S (length a)) (a ++ y :: b)) with b; [|rewrite skipn_app, skipn_all2 by lia; replace (Datatypes.S (length a) - length a)%nat with 1%nat by lia; reflexivity].
    rewrite app_nil_r. reflexivity.
  - unfold list_becomes. repeat match goal with |- _ /\ _ => split end; try reflexivity; unfold vec_at; cbn [st_vecs with_vecs with_nid].
    + apply PositiveMap.gss.
    + intros m ds M Y. rewrite PositiveMap.gso by exact M. exact Y.
    + intros m d Y. exact Y.
Qed.
Lemma setf_no_place : forall st s p tok i la a1 name tok0 args args0 w pos l es0 v st1 es, form st p $"setf" tok [P i (OList la); a1] -> standard st s $"setf" -> plain a1 ->
  form st (P i (OList la)) name tok0 args -> standard st s name -> Forall2 (looked_up st s) args args0 -> place_args name args0 w pos -> settled w -> is_list_at st w l es0 ->
  evals a1 s (noted (noted st s tok) s tok0) (Val (Some v)) st1 -> vec_at st1 l = Some es -> (pos (length es) < 0 \/ Z.of_nat (length es) <= pos (length es))%Z ->
  exists st', evals p s st (Undef UBIndex) st'.
Proof.
  intros st s p tok i la a1 name tok0 args args0 w pos l es0 v st1 es F S PL F0 S0 LU PA SW W E1 X B. eexists.
  eapply setf_place_run; try eassumption; [|discriminate]. destruct W as (T & V & _). unfold bind, reads, list_loc. rewrite T, V. unfold get_vec. cbn [st_vecs with_nid]. fold (vec_at st1 l). rewrite X.
  assert (C : ((pos (length es) <? 0)%Z || (Z.of_nat (length es) <=? pos (length es))%Z) = true) by lia. rewrite C. reflexivity.
Qed.

Lemma scope_of_at : forall st s, scope_at st s <> None -> scope_at st s = Some (scope_of st s).
Proof. intros st s H. unfold scope_of. destruct (scope_at st s); [reflexivity|contradiction]. Qed.

(** ** rval *)
Lemma rval_value : forall st s p tok i la r st1 sc sc1, form st p $"rval" tok [P i (OList la)] -> standard st s $"rval" ->
  scope_at (noted st s tok) s = Some sc -> evals (P i (OList la)) s (scope_becomes s (set_needlv false sc) (noted st s tok)) (Val r) st1 -> scope_at st1 s = Some sc1 ->
  evals p s st (Val r) (scope_becomes s (set_needlv (s_needlv sc) sc1) st1).
Proof.
  intros st s p tok i la r st1 sc sc1 F S H (n & E & N) H1.
  apply (special_builtin _ _ _ _ _ _ BRValue F S); [vm_compute; reflexivity|vm_compute; reflexivity|apply Forall_cons; [exact Logic.I|constructor]|].
  exists n. split; [|discriminate]. cbn [call_builtin]. unfold b_rval, check_args. cbn [length Nat.eqb negb].
  unfold bind at 1, ret at 1. unfold bind at 1, reads at 1. rewrite (get_at _ _ _ H). unfold bind at 1, mod_scope at 1, bind at 1, reads at 1. rewrite (get_at _ _ _ H). unfold put_scope at 1.
  unfold bind at 1, arg at 1. cbn [nth_error]. unfold ret at 1. unfold bind at 1, eval_arg_if_needed at 1, bind at 1, lift at 1. cbn [deref obj_is_list].
  unfold scope_becomes in E at 1. rewrite E. unfold bind at 1, mod_scope at 1, bind at 1, reads at 1. rewrite (get_at _ _ _ H1). reflexivity.
Qed.

(** ** Programs that go wrong *)
Lemma splice_null : exists st', runs false false $"(+ `,@(list 1 2) 3)" [] fresh (Undef UBNullDeref) st'.
Proof. eexists. apply (runs_by 60); [vm_compute; reflexivity|discriminate]. Qed.
Lemma saves_by : forall n vb tr oe c md st o, fst (save_eval n vb tr oe c md st) = o -> o <> NoFuel -> saves vb tr oe c md st o (snd (save_eval n vb tr oe c md st)).
Proof. intros n vb tr oe c md st o H N. exists n. split; [|exact N]. rewrite <- H. destruct (save_eval n vb tr oe c md st); reflexivity. Qed.
Lemma left_asking : exists w st1 r st2, saves false false false $"(setf (nofunction) 1)" [] fresh (Val (Some w)) st1 /\
  runs false false $"(str (first (list 1 2)))" [] st1 (Val (Some r)) st2 /\ is_str r $"?".
Proof.
  eexists _, _, _, _. split; [apply (saves_by 60); [vm_compute; reflexivity|discriminate]|]. split; [apply (runs_by 60); [vm_compute; reflexivity|discriminate]|split; reflexivity].
Qed.
Lemma place_of_place : exists e st1 st2, runs false false $"(def l (list 1 2 3)) (def k (list l 0)) (setf (first (first k)) 5)" [] fresh (Throw e) st1 /\
  exists v, runs false false $"(def l (list 1 2 3)) (def k (list l 0)) (setf (first (rval (first k))) 5) (str l)" [] fresh (Val (Some v)) st2 /\ is_str v $"(5 2 3)".
Proof.
  eexists _, _, _. split; [apply (runs_by 60); [vm_compute; reflexivity|discriminate]|]. eexists. split; [apply (runs_by 60); [vm_compute; reflexivity|discriminate]|split; reflexivity].
Qed.

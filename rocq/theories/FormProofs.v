(** Names, expressions and special forms. *)
Require Import String Ascii List ZArith Bool Lia.
Require Import PArith FMapPositive.
From Verif Require Import Base CppString Num Token Value State Show ScopeOps Builtins Table Eval LispTop SpecRun SpecVal SpecList SpecText SpecForm SpecLex FuelProofs ClassifyProofs
  BuiltinProofs Wf RunProofs TextProofs StrProofs NumProofs ErrProofs ListProofs.
Import ListNotations.

(** ** Maps *)
Lemma pm_add_same : forall A k (v : A) m, PositiveMap.find k m = Some v -> PositiveMap.add k v m = m.
Proof.
  induction k as [k IH|k IH|]; intros v [|l o r] H; try discriminate; cbn in *; try congruence;
    rewrite IH by assumption; reflexivity.
Qed.
Lemma pm_add_add : forall A k (v w : A) m, PositiveMap.add k v (PositiveMap.add k w m) = PositiveMap.add k v m.
Proof.
  induction k as [k IH|k IH|]; intros v w [|l o r]; cbn; try reflexivity; rewrite IH; reflexivity.
Qed.
Lemma lookup_find : forall name vs, vars_find name vs = lookup name vs.
Proof.
  intros name. unfold lookup. induction vs as [|[k p] vs IH]; [reflexivity|]. cbn [vars_find List.find fst].
  destruct (list_eq_dec ascii_dec name k) as [->|N]; [rewrite str_eqb_refl; reflexivity|].
  destruct (str_eqb name k) eqn:E; [apply str_eqb_eq in E; congruence|exact IH].
Qed.
Lemma lookup_set : forall name p vs n, lookup n (vars_set name p vs) = if list_eq_dec ascii_dec n name then Some p else lookup n vs.
Proof.
  intros name p vs n. rewrite <- !lookup_find. induction vs as [|[k q] vs IH]; cbn [vars_set vars_find].
  - destruct (list_eq_dec ascii_dec n name) as [->|N]; [rewrite str_eqb_refl; reflexivity|].
    destruct (str_eqb n name) eqn:E; [apply str_eqb_eq in E; congruence|reflexivity].
  - destruct (str_cmp name k) eqn:C; cbn [vars_find].
    + apply str_cmp_eq in C. subst k.
      destruct (list_eq_dec ascii_dec n name) as [->|N]; [rewrite str_eqb_refl; reflexivity|].
      destruct (str_eqb n name) eqn:E; [apply str_eqb_eq in E; congruence|reflexivity].
    + destruct (list_eq_dec ascii_dec n name) as [->|N]; [rewrite str_eqb_refl; reflexivity|].
      destruct (str_eqb n name) eqn:E; [apply str_eqb_eq in E; congruence|reflexivity].
    + rewrite IH. destruct (list_eq_dec ascii_dec n name) as [->|N]; [|reflexivity].
      destruct (str_eqb name k) eqn:E; [|reflexivity]. apply str_eqb_eq in E. subst k.
      assert (str_cmp name name = Eq) by (apply str_cmp_eq; reflexivity). congruence.
Qed.
Lemma find_var : forall st s name, scope_exists st s -> scope_find s name st = Val (var_at st s name).
Proof.
  intros st s name (sc & H). unfold scope_find, get_scope, var_at, scope_at in *. rewrite H. cbn [obind]. rewrite lookup_find. reflexivity.
Qed.
Lemma exists_at : forall st s sc, scope_at st s = Some sc -> scope_exists st s. Proof. intros; eexists; eassumption. Qed.
Lemma get_at : forall st s sc, scope_at st s = Some sc -> get_scope s st = Val sc.
Proof. intros st s sc H. unfold get_scope. unfold scope_at in H. rewrite H. reflexivity. Qed.
Local Hint Resolve exists_at : core.

(** ** Lookup *)
Lemma closure_find_ok : forall st name s r, enclosing st name s r -> forall n, (Pos.to_nat s <= n)%nat -> closure_find n s name st = Val r.
Proof.
  intros st name s r H. induction H as [s sc H C|s sc c p H C L E V|s sc c r H C L E V R IH]; intros n B.
  - destruct n; [lia|]. cbn [closure_find]. rewrite (get_at _ _ _ H). cbn [obind]. rewrite C. reflexivity.
  - destruct n; [lia|]. cbn [closure_find]. rewrite (get_at _ _ _ H). cbn [obind]. rewrite C, find_var, V by assumption. reflexivity.
  - destruct n; [lia|]. cbn [closure_find]. rewrite (get_at _ _ _ H). cbn [obind]. rewrite C, find_var, V by assumption. apply IH. lia.
Qed.
Lemma chain_ok : forall st name s r, enclosing st name s r -> in_closure_chain s name st = Val r.
Proof. intros. apply closure_find_ok; [assumption|lia]. Qed.
Lemma modules_ok : forall st name ms r, in_modules st name ms r -> modules_search ms name st = Val r.
Proof.
  intros st name ms r H. induction H as [|k i m p ms E V|k i m ms r E V H IH]; [reflexivity| |]; cbn [modules_search scope_ref obind];
    rewrite find_var, V by assumption; [reflexivity|exact IH].
Qed.
Lemma sym_text : forall p name st, expr_sym p name -> ptr_str p st = Val name.
Proof. intros p name st (i & v & -> & H). apply ptr_str_sym, H. Qed.
Lemma resolve_sees : forall st s name r p, sees st s name r -> ptr_str p st = Val name -> resolve s p st = (Val (match r with Some q => q | None => p end), st).
Proof.
  intros st s name r p H T. unfold resolve, bind, reads. rewrite T.
  destruct H as [q E V|sc q H V E G|sc c q H V E G C|sc i ms msc r H V E G C M MS I].
  - rewrite find_var, V by assumption. reflexivity.
  - rewrite find_var, V by eauto. rewrite (get_at _ _ _ H), find_var, G by assumption. reflexivity.
  - rewrite find_var, V by eauto. rewrite (get_at _ _ _ H), find_var, G by assumption. rewrite (chain_ok _ _ _ _ C). reflexivity.
  - rewrite find_var, V by eauto. rewrite (get_at _ _ _ H), find_var, G by assumption. rewrite (chain_ok _ _ _ _ C).
    unfold find_in_modules, scope_index, bind, reads, lift. destruct E as (gs & E). rewrite (get_at _ _ _ E).
    unfold var_at in M. rewrite E in M. change k_modules with $"###modules###". rewrite lookup_find, M. unfold ret.
    cbn [scope_ref]. rewrite (get_at _ _ _ MS). rewrite (modules_ok _ _ _ _ I). destruct r; reflexivity.
Qed.
Lemma sees_det : forall st s name r r', sees st s name r -> sees st s name r' -> r = r'.
Proof.
  intros st s name r r' H H'. pose (p := P 1 (OVar (mkv TSym (OString name)))). assert (T : ptr_str p st = Val name) by (apply sym_text; exists 1%positive, (mkv TSym (OString name)); repeat split).
  assert (T2 := T). pose (q := P 2 (OVar (mkv TSym (OString name)))). assert (U : ptr_str q st = Val name) by (apply sym_text; exists 2%positive, (mkv TSym (OString name)); repeat split).
  pose proof (resolve_sees _ _ _ _ _ H T) as E1. pose proof (resolve_sees _ _ _ _ _ H' T) as E2.
  pose proof (resolve_sees _ _ _ _ _ H U) as F1. pose proof (resolve_sees _ _ _ _ _ H' U) as F2.
  rewrite E1 in E2. rewrite F1 in F2. injection E2 as E2. injection F2 as F2.
  destruct r as [x|], r' as [y|]; try congruence; unfold p, q in *; congruence.
Qed.

(** ** Expressions *)
Lemma eval_mono_bind : forall p s, monotone (fun n => r_eval (run n) p s). Proof. exact mono_eval. Qed.
Lemma eval_unfold : forall n p s, r_eval (run (S n)) p s = eval_ast (run n) p s. Proof. reflexivity. Qed.
Lemma expr_eval : forall n st p es s, expr_list st p es ->
  r_eval (run (S n)) p s st = match es with [] => (Val (Some vnil), st) | h :: t => eval_list (run n) h t s st end.
Proof.
  intros n st p es s H. rewrite eval_unfold. unfold eval_ast. destruct H as [(i & l & -> & V)|(i & v & l & -> & T & L & V)].
  - unfold bind, reads, list_ref. cbn [deref obind]. unfold get_vec. unfold vec_at in V. rewrite V. destruct es; reflexivity.
  - unfold is_list, is_nil. rewrite (is_ty_of v _ _ T), T. tys. cbn [orb andb negb]. unfold bind, reads.
    rewrite (list_value_list _ _ l es); [|repeat split; assumption]. destruct es; reflexivity.
Qed.
Lemma get_macro_none : forall st g name p, no_macro st g name -> ptr_str p st = Val name -> get_macro p g st = Val None.
Proof.
  intros st g name p [E H] T. unfold get_macro. change k_macros with $"###macros###". rewrite find_var by assumption. cbn [obind].
  destruct H as [->|(i & ms & -> & EM & V)]; [reflexivity|]. cbn [scope_ref obind]. rewrite T. cbn [obind]. rewrite find_var, V by assumption. reflexivity.
Qed.
Lemma noted_run : forall st s sc v, scope_at st s = Some sc ->
  match v_tok v with Some t => mod_scope s (set_token (Some t)) | None => ret tt end st = (Val tt, noted st s (v_tok v)).
Proof.
  intros st s sc v H. unfold noted. rewrite H. destruct (v_tok v) as [t|]; [|reflexivity].
  unfold mod_scope, bind, reads. rewrite (get_at _ _ _ H). reflexivity.
Qed.
(** Noting a place changes no variable. *)
Lemma noted_scope : forall st s tok u, scope_at (noted st s tok) u =
  match tok with Some t => if Pos.eqb u s then option_map (set_token (Some t)) (scope_at st u) else scope_at st u | None => scope_at st u end.
Proof.
  intros st s tok u. unfold noted. destruct tok as [t|]; [|reflexivity].
  destruct (scope_at st s) as [sc|] eqn:E.
  - unfold scope_at at 1. cbn [st_scopes with_scopes]. rewrite find_add. destruct (Pos.eqb_spec u s) as [->|N]; [rewrite E; reflexivity|reflexivity].
  - destruct (Pos.eqb_spec u s) as [->|N]; [rewrite E; reflexivity|reflexivity].
Qed.
Lemma noted_var : forall st s tok u n, var_at (noted st s tok) u n = var_at st u n.
Proof.
  intros st s tok u n. unfold var_at. rewrite noted_scope. destruct tok as [t|]; [|reflexivity].
  destruct (Pos.eqb u s); [|reflexivity]. destruct (scope_at st u) as [sc|]; [|reflexivity]. destruct sc; reflexivity.
Qed.
Lemma noted_exists : forall st s tok u, scope_exists (noted st s tok) u <-> scope_exists st u.
Proof.
  intros st s tok u. unfold scope_exists. rewrite noted_scope. destruct tok as [t|]; [|tauto]. destruct (Pos.eqb u s); [|tauto].
  destruct (scope_at st u) as [sc|]; cbn; split; intros (x & H); try discriminate; eauto.
Qed.
(** States that agree on variables, scopes and the links between them. *)
Definition like (st st' : state) : Prop :=
  (forall u, scope_exists st u -> scope_exists st' u) /\ (forall u n, scope_exists st u -> var_at st' u n = var_at st u n) /\
  (forall u a b, scope_at st u = Some a -> scope_at st' u = Some b -> s_global b = s_global a /\ s_closure b = s_closure a /\ s_vars b = s_vars a).
Lemma like_noted : forall st s tok, like st (noted st s tok).
Proof.
  intros st s tok. split; [|split].
  - intros u H. apply noted_exists, H.
  - intros u n _. apply noted_var.
  - intros u a b H K. rewrite noted_scope, H in K. destruct tok as [t|]; [|assert (a = b) by congruence; subst; auto].
    destruct (Pos.eqb u s); [|assert (a = b) by congruence; subst; auto]. cbn in K. injection K as <-. destruct a; auto.
Qed.
Lemma like_enclosing : forall st st' name s r, like st st' -> enclosing st name s r -> enclosing st' name s r.
Proof.
  intros st st' name s r (E & V & F) H. induction H as [s sc H C|s sc c p H C L X W|s sc c r H C L X W R IH];
    destruct (E s (ex_intro _ _ H)) as (sc' & H'); destruct (F _ _ _ H H') as (G & CL & _).
  - eapply en_none; [exact H'|rewrite CL; exact C].
  - eapply en_here; [exact H'|rewrite CL; exact C|exact L|auto|]. rewrite V by assumption. exact W.
  - eapply en_up; [exact H'|rewrite CL; exact C|exact L|auto| |exact IH]. rewrite V by assumption. exact W.
Qed.
Lemma like_modules : forall st st' name ms r, like st st' -> in_modules st name ms r -> in_modules st' name ms r.
Proof.
  intros st st' name ms r (E & V & F) H. induction H; econstructor; eauto; rewrite V by assumption; assumption.
Qed.
Lemma like_sees : forall st st' s name r, like st st' -> sees st s name r -> sees st' s name r.
Proof.
  intros st st' s name r L H. assert (L' := L). destruct L as (E & V & F). destruct H as [q X W|sc q H W X G|sc c q H W X G C|sc i ms msc r H W X G C M MS I].
  - apply se_own; [auto|]. rewrite V by assumption. exact W.
  - destruct (E s (ex_intro _ _ H)) as (sc' & H'). destruct (F _ _ _ H H') as (Q & _). rewrite <- Q in *.
    eapply se_global; eauto; rewrite V by eauto; assumption.
  - destruct (E s (ex_intro _ _ H)) as (sc' & H'). destruct (F _ _ _ H H') as (Q & _). rewrite <- Q in *.
    eapply se_enclosing; eauto; try (rewrite V by eauto; assumption). eapply like_enclosing; eauto.
  - destruct (E s (ex_intro _ _ H)) as (sc' & H'). destruct (F _ _ _ H H') as (Q & _). rewrite <- Q in *.
    destruct (E ms (ex_intro _ _ MS)) as (msc' & MS'). destruct (F _ _ _ MS MS') as (_ & _ & QV).
    eapply se_module; eauto; try (rewrite V by eauto; eassumption). + eapply like_enclosing; eauto.
    + rewrite QV. eapply like_modules; eauto.
Qed.

(** ** Which function a list calls *)
Lemma fn_value : forall v f st, is_fn v f -> function_value v st = Val f.
Proof. intros v f st [T V]. unfold function_value, is_ty. rewrite T, V. reflexivity. Qed.
Lemma resolve_elem_sym : forall st s name r p, expr_sym p name -> sees st s name r -> resolve_elem p s st = (Val (match r with Some q => q | None => p end), st).
Proof.
  intros st s name r p X H. assert (T := sym_text p name st X). destruct X as (i & v & -> & (TY & _)).
  unfold resolve_elem, bind, lift. cbn [deref obj_is_sym]. unfold is_ty. rewrite TY. tys. apply (resolve_sees _ _ _ _ _ H T).
Qed.
Lemma noted_tracing : forall st s tok g gs, scope_at st g = Some gs -> exists gs1, get_scope g (noted st s tok) = Val gs1 /\ s_tracing gs1 = s_tracing gs.
Proof.
  intros st s tok g gs H. pose proof (noted_scope st s tok g) as N. rewrite H in N. destruct tok as [t|].
  - destruct (Pos.eqb g s); eexists; (split; [apply get_at; exact N|]); [destruct gs; reflexivity|reflexivity].
  - exists gs. split; [apply get_at; exact N|reflexivity].
Qed.
Lemma resolve_args : forall st s ps qs, Forall2 (looked_up st s) ps qs -> resolve_elems ps s st = (Val qs, st).
Proof.
  intros st s ps qs H. induction H as [|p q ps qs H _ IH]; [reflexivity|]. cbn [resolve_elems].
  assert (E : resolve_elem p s st = (Val q, st)).
  { destruct H as [p name q X S|p name X S|i v N|i l].
    - apply (resolve_elem_sym _ _ _ _ _ X S).
    - apply (resolve_elem_sym _ _ _ _ _ X S).
    - unfold resolve_elem, bind, lift. cbn [deref obj_is_sym]. unfold is_ty. destruct (ltype_eqb (v_ty v) TSym) eqn:T; [|reflexivity].
      exfalso. apply N. destruct (v_ty v); cbn in T; congruence.
    - reflexivity. }
  unfold bind. rewrite E, IH. reflexivity.
Qed.
Lemma form_eval : forall n st s p name tok args args0 f, form st p name tok args -> means st s name f ->
  (if fn_sp f then args0 = args else Forall2 (looked_up st s) args args0) ->
  r_eval (run (S n)) p s st =
  bind (eval_args (run n) (fn_sp f) args0 s) (fun args1 => r_call (run n) f args1 s) (noted st s tok).
Proof.
  intros n st s p name tok args args0 f (j & v & X & SY & TK) (sc & gs & i & w & H & HG & TR & NM & SE & FN) A.
  rewrite (expr_eval _ _ _ _ _ X). unfold eval_list. unfold bind at 1, global_of, bind at 1, reads at 1. rewrite (get_at _ _ _ H). unfold ret at 1.
  unfold bind at 1, reads at 1. rewrite (get_macro_none _ _ name); [|exact NM|apply ptr_str_sym; exact SY].
  unfold bind at 1, lift at 1. cbn [vref vref_obj]. unfold bind at 1. rewrite (noted_run _ _ _ _ H), TK.
  set (st1 := noted st s tok). assert (SE1 : sees st1 s name (Some (P i (OVar w)))) by (eapply like_sees; [apply like_noted|exact SE]).
  unfold bind at 1. rewrite (resolve_elem_sym _ _ _ _ (P j (OVar v)) (ex_intro _ j (ex_intro _ v (conj eq_refl SY))) SE1).
  unfold bind at 1. unfold head_function, bind at 1, lift at 1. cbn [vref vref_obj]. unfold try_catch, reads. rewrite (fn_value _ _ _ FN).
  assert (E : (if fn_sp f then ret args else resolve_elems args s) st1 = (Val args0, st1)).
  { destruct (fn_sp f); [subst; reflexivity|]. apply resolve_args. clear -A. induction A as [|a b ps qs L _ IH]; constructor; [clear IH|exact IH].
    assert (K := like_noted st s tok). destruct L; [eapply lu_var|eapply lu_unknown|eapply lu_value|eapply lu_list]; eauto; eapply like_sees; eauto. }
  unfold bind at 1. rewrite E. destruct (noted_tracing st s tok _ _ HG) as (gs1 & G1 & TR1). unfold bind at 1. fold st1 in G1. rewrite G1, TR1, TR.
  rewrite dbg_visit. reflexivity.
Qed.

Lemma not_spliced : forall v, settled v -> match v_unq v with UnqSplice => is_list v | _ => false end = false.
Proof.
  intros v [H|[H1 H2]]; destruct (v_unq v); try reflexivity; [congruence|]. unfold is_list, is_nil, is_ty. destruct (v_ty v); try reflexivity; congruence.
Qed.
Lemma eval_args_special : forall R args s st, Forall plain args -> eval_args R true args s st = (Val args, st).
Proof.
  intros R args s st H. induction H as [|p args H _ IH]; [reflexivity|]. cbn [eval_args]. unfold bind, lift in *. destruct p as [|i o]; [destruct H|].
  cbn [deref]. rewrite andb_false_r. unfold ret at 1. cbn [deref].
  destruct o; cbn [plain] in H; try rewrite (not_spliced _ H); rewrite IH; reflexivity.
Qed.
Lemma eval_args_done : forall s ps st qs st', evaluated s ps st qs st' -> exists n, forall m, (n <= m)%nat -> eval_args (run m) false ps s st = (Val qs, st').
Proof.
  intros s ps st qs st' H. induction H as [st|i v ps st qs st' S H (n & IH)|i l ps st v st1 st2 q qs st3 E S (-> & ->) H (n & IH)].
  - exists 0%nat. reflexivity.
  - exists n. intros m L. cbn [eval_args]. unfold bind, lift. cbn [deref obj_is_list andb]. unfold ret at 1. cbn [deref]. rewrite (not_spliced _ S), IH by exact L. reflexivity.
  - destruct E as (k & E & N). exists (Nat.max n k). intros m L. cbn [eval_args]. unfold bind at 1, lift at 1. cbn [deref obj_is_list negb andb].
    unfold bind at 1. unfold bind at 1. rewrite (ends_at _ _ _ _ _ _ m (mono_eval _ _) E N) by lia.
    unfold bind at 1, some_var, ret at 1. unfold new_var_ptr, new_ptr. unfold bind at 1, lift at 1. cbn [deref]. rewrite (not_spliced _ S).
    unfold bind. rewrite IH by lia. reflexivity.
Qed.
Lemma eval_args_fails : forall s ps st o st', evaluation_fails s ps st o st' -> forall (k : nat -> list ptr -> M result),
  exists n, forall m, (n <= m)%nat -> bind (eval_args (run m) false ps s) (k m) st = (o, st').
Proof.
  intros s ps st o st' H. induction H as [i l ps st o o' st' E F|i v ps st o st' S H IH|i l ps st v st1 q st2 o st3 E S (-> & ->) H IH]; intros k.
  - destruct E as (n & E & N). exists n. intros m L. unfold bind at 1. cbn [eval_args]. unfold bind at 1, lift at 1. cbn [deref obj_is_list negb andb].
    unfold bind at 1. unfold bind at 1. rewrite (ends_at _ _ _ _ _ _ m (mono_eval _ _) E N) by lia.
    destruct o as [[w|]|?|?|?|]; cbn [fails] in F; subst; try reflexivity; destruct F.
  - destruct (IH (fun m qs => k m (P i (OVar v) :: qs))) as (n & IH'). exists n. intros m L. specialize (IH' m L). unfold bind at 1. unfold bind at 1 in IH'.
    cbn [eval_args]. unfold bind, lift. cbn [deref obj_is_list andb]. unfold ret at 1. cbn [deref]. rewrite (not_spliced _ S).
    destruct (eval_args (run m) false ps s st) as [[]]; exact IH'.
  - destruct E as (j & E & N). destruct (IH (fun m qs => k m (P (st_nid st1) (OVar v) :: qs))) as (n & IH'). exists (Nat.max n j). intros m L. specialize (IH' m ltac:(lia)).
    unfold bind at 1. unfold bind at 1 in IH'. cbn [eval_args]. unfold bind at 1, lift at 1. cbn [deref obj_is_list negb andb].
    unfold bind at 1. unfold bind at 1. rewrite (ends_at _ _ _ _ _ _ m (mono_eval _ _) E N) by lia.
    unfold bind at 1, some_var, ret at 1. unfold new_var_ptr, new_ptr. unfold bind at 1, lift at 1. cbn [deref]. rewrite (not_spliced _ S).
    unfold bind. destruct (eval_args (run m) false ps s (with_nid (Pos.succ (st_nid st1)) st1)) as [[]]; exact IH'.
Qed.

(** ** What evaluating a list does *)
Lemma eval_S : forall p s st o st', evals p s st o st' -> exists n, r_eval (run (S n)) p s st = (o, st') /\ o <> NoFuel.
Proof. intros p s st o st' ([|n] & H & N); [cbn in H; unfold no_fuel, lift in H; congruence|]. exists n. split; assumption. Qed.
Lemma special_dispatch : forall st s p name tok args f o st', form st p name tok args -> means st s name f -> fn_sp f = true ->
  Forall plain args -> evals p s st o st' <-> calls f args s (noted st s tok) o st'.
Proof.
  intros st s p name tok args f o st' F M SP PL.
  assert (E : forall n, r_eval (run (S n)) p s st = r_call (run n) f args s (noted st s tok)).
  { intro n. rewrite (form_eval n _ _ _ _ _ _ args _ F M) by (rewrite SP; reflexivity). rewrite SP. unfold bind. rewrite eval_args_special by exact PL. reflexivity. }
  split; intro H.
  - apply eval_S in H. destruct H as (n & H & N). rewrite E in H. exists n. split; assumption.
  - destruct H as (n & H & N). exists (S n). rewrite E. split; assumption.
Qed.
Lemma ordinary_dispatch : forall st s p name tok args args0 args1 st1 f o st', form st p name tok args -> means st s name f -> fn_sp f = false ->
  Forall2 (looked_up st s) args args0 -> evaluated s args0 (noted st s tok) args1 st1 ->
  evals p s st o st' <-> calls f args1 s st1 o st'.
Proof.
  intros st s p name tok args args0 args1 st1 f o st' F M SP LU EV. destruct (eval_args_done _ _ _ _ _ EV) as (k & K).
  assert (E : forall n, (k <= n)%nat -> r_eval (run (S n)) p s st = r_call (run n) f args1 s st1).
  { intros n L. rewrite (form_eval n _ _ _ _ _ _ args0 _ F M) by (rewrite SP; exact LU). rewrite SP. unfold bind. rewrite K by exact L. reflexivity. }
  split; intros (n & H & N).
  - exists (Nat.max k n). split; [|exact N]. rewrite <- E by lia. apply (ends_at _ _ _ _ _ n _ (mono_eval p s) H N). lia.
  - exists (S (Nat.max k n)). split; [|exact N]. rewrite E by lia. apply (ends_at _ _ _ _ _ n _ (mono_call f args1 s) H N). lia.
Qed.
Lemma ordinary_fails : forall st s p name tok args args0 f o st', form st p name tok args -> means st s name f -> fn_sp f = false ->
  Forall2 (looked_up st s) args args0 -> evaluation_fails s args0 (noted st s tok) o st' -> o <> NoFuel -> evals p s st o st'.
Proof.
  intros st s p name tok args args0 f o st' F M SP LU EV N.
  destruct (eval_args_fails _ _ _ _ _ EV (fun n args1 => r_call (run n) f args1 s)) as (k & K).
  exists (S k). split; [|exact N]. rewrite (form_eval k _ _ _ _ _ _ args0 _ F M) by (rewrite SP; exact LU). rewrite SP. apply K. lia.
Qed.

(** The special forms of a fresh interpreter. *)
Lemma ends_from : forall A (f g : nat -> M A) st st1 k, monotone f -> monotone g -> (forall n, (k <= n)%nat -> f n st = g n st1) ->
  forall o st', ends_with f st o st' <-> ends_with g st1 o st'.
Proof.
  intros A f g st st1 k Mf Mg E o st'. split; intros (n & H & N); exists (Nat.max k n); (split; [|exact N]).
  - rewrite <- E by lia. apply (ends_at _ _ _ _ _ n _ Mf H N). lia.
  - rewrite E by lia. apply (ends_at _ _ _ _ _ n _ Mg H N). lia.
Qed.
Lemma mono_builtin : forall b args s, monotone (fun n => call_builtin (run n) b args s).
Proof. intros b args s x y XY. exact (mono_call (MkFn (CBuiltin b) [] [] true true false []) args s (S x) (S y) ltac:(lia)). Qed.
Lemma special_builtin : forall st s p name tok args b, form st p name tok args -> standard st s name ->
  builtin_code name = Some b -> option_map fn_sp (builtin_fn name) = Some true -> Forall plain args -> forall o st',
  evals p s st o st' <-> ends_with (fun n => call_builtin (run n) b args s) (noted st s tok) o st'.
Proof.
  intros st s p name tok args b F (f & B & M) C SP PL o st'. rewrite B in SP. injection SP as SP.
  rewrite (special_dispatch _ _ _ _ _ _ _ o st' F M SP PL). split.
  - intro H. apply (builtin_code_call name); [exact C|]. exists f. split; assumption.
  - intros (n & H & N). destruct (builtin_calls _ _ _ _ _ _ _ _ C H N) as (f' & B' & R). congruence.
Qed.
Lemma ordinary_builtin : forall st s p name tok args args0 args1 st1 o st', form st p name tok args -> standard st s name ->
  option_map fn_sp (builtin_fn name) = Some false -> Forall2 (looked_up st s) args args0 -> evaluated s args0 (noted st s tok) args1 st1 ->
  evals p s st o st' <-> builtin_call name args1 s st1 o st'.
Proof.
  intros st s p name tok args args0 args1 st1 o st' F (f & B & M) SP LU EV. rewrite B in SP. injection SP as SP.
  rewrite (ordinary_dispatch _ _ _ _ _ _ _ _ _ _ o st' F M SP LU EV). unfold builtin_call. split; [intro H; exists f; auto|intros (f' & B' & H); congruence].
Qed.

(** ** if *)
Lemma cast_fails : forall A v n m st (a : A), cast_fail v n m st <> Val a.
Proof.
  intros A v n m st a. unfold cast_fail. destruct (string_value v st); cbn [obind]; try discriminate. destruct (Format _ _); cbn [obind]; discriminate.
Qed.
Lemma convert_fails : forall A v n st (a : A), cannot_convert v n st <> Val a.
Proof.
  intros A v n st a. unfold cannot_convert. destruct (type_string v); cbn [obind]; try discriminate. destruct (Format _ _); cbn [obind]; try discriminate. apply cast_fails.
Qed.
Lemma bool_is : forall v b st, bool_value v st = Val b -> is_bool v b.
Proof.
  intros v b st H. unfold bool_value in H. destruct (is_ty TBool v) eqn:T.
  - unfold is_ty in T. split; [destruct (v_ty v); cbn in T; congruence|]. destruct (v_val v) as [[]|]; congruence.
  - apply cast_fails in H. destruct H.
Qed.
Lemma if_run : forall n c a rest s st, (length rest <= 1)%nat -> b_if (run n) (c :: a :: rest) s st =
  bind (r_eval (run n) c s) (fun r => bind (some_var r) (fun v => bind (reads (bool_value v)) (fun b =>
    r_eval (run n) (if b then a else nth 0 rest PNull) s))) st.
Proof.
  intros n c a rest s st L. unfold b_if. assert (E : ((length (c :: a :: rest) =? 2)%nat || (length (c :: a :: rest) =? 3)%nat) = true).
  { destruct rest as [|e [|]]; cbn in *; try reflexivity; lia. }
  rewrite E. unfold bind at 1, ret at 1. unfold bind at 1. unfold arg. cbn [nth_error]. unfold ret at 1.
  unfold bind. destruct (r_eval (run n) c s st) as [[r|?|?|?|] st1]; try reflexivity. destruct r as [v|]; [|reflexivity]. unfold some_var, ret, reads.
  destruct (bool_value v st1) as [b|?|?|?|]; try reflexivity. destruct b, rest; reflexivity.
Qed.
Lemma if_chooses : forall st s p tok c a rest v b st1, form st p $"if" tok (c :: a :: rest) -> standard st s $"if" -> (length rest <= 1)%nat ->
  Forall plain (c :: a :: rest) -> evals c s (noted st s tok) (Val (Some v)) st1 -> is_bool v b -> forall o st',
  evals p s st o st' <-> evals (if b then a else nth 0 rest PNull) s st1 o st'.
Proof.
  intros st s p tok c a rest v b st1 F S L PL (k & E & N) B o st'.
  rewrite (special_builtin _ _ _ _ _ _ BIf F S) by (try reflexivity; assumption).
  apply (ends_from _ _ _ _ _ k (mono_builtin _ _ _) (mono_eval _ _)). intros n K. cbn [call_builtin].
  rewrite if_run by exact L. unfold bind. rewrite (ends_at _ _ _ _ _ _ n (mono_eval _ _) E N K). unfold some_var, ret, reads.
  rewrite (bool_value_bool _ _ _ B). reflexivity.
Qed.
Lemma eval_null : forall s st o st', evals PNull s st o st' <-> (o = Val None /\ st' = st).
Proof.
  intros s st o st'. split.
  - intro H. apply eval_S in H. destruct H as (n & H & _). cbn in H. unfold ret in H. injection H; auto.
  - intros [-> ->]. exists 1%nat. split; [reflexivity|discriminate].
Qed.
Lemma if_no_else : forall st s p tok c a v st1, form st p $"if" tok [c; a] -> standard st s $"if" -> Forall plain [c; a] ->
  evals c s (noted st s tok) (Val (Some v)) st1 -> is_bool v false -> forall o st', evals p s st o st' <-> (o = Val None /\ st' = st1).
Proof.
  intros st s p tok c a v st1 F S PL E B o st'. rewrite (if_chooses _ _ _ _ _ _ _ _ _ _ F S ltac:(cbn; lia) PL E B). apply eval_null.
Qed.
Lemma if_condition_fails : forall st s p tok c a rest o o' st1, form st p $"if" tok (c :: a :: rest) -> standard st s $"if" -> (length rest <= 1)%nat ->
  Forall plain (c :: a :: rest) -> evals c s (noted st s tok) o st1 -> hands_on o o' -> evals p s st o' st1.
Proof.
  intros st s p tok c a rest o o' st1 F S L PL (k & E & N) FA.
  apply (special_builtin _ _ _ _ _ _ BIf F S); try reflexivity; try assumption. exists k. cbn [call_builtin]. rewrite if_run by exact L. unfold bind. rewrite E.
  destruct o as [[v|]|?|?|?|]; cbn [hands_on fails] in FA; unfold hands_on, fails in FA; subst; try (split; [reflexivity|discriminate]); try contradiction; try (split; [reflexivity|assumption]).
Qed.
Lemma if_needs_boolean : forall st s p tok c a rest v st1, form st p $"if" tok (c :: a :: rest) -> standard st s $"if" -> (length rest <= 1)%nat ->
  Forall plain (c :: a :: rest) -> evals c s (noted st s tok) (Val (Some v)) st1 -> v_ty v <> TBool -> forall o st', evals p s st o st' ->
  st' = st1 /\ forall r, o <> Val r.
Proof.
  intros st s p tok c a rest v st1 F S L PL (k & E & N) T o st' H.
  rewrite (special_builtin _ _ _ _ _ _ BIf F S) in H by (try reflexivity; assumption). destruct H as (n & H & NF).
  apply (ends_at _ _ _ _ _ n (Nat.max k n) (mono_builtin _ _ _)) in H; [|exact NF|lia]. cbn [call_builtin] in H. rewrite if_run in H by exact L.
  unfold bind in H. rewrite (ends_at _ _ _ _ _ _ (Nat.max k n) (mono_eval _ _) E N) in H by lia. unfold some_var, ret, reads in H.
  destruct (bool_value v st1) as [b|?|?|?|] eqn:BV; [apply bool_is in BV; destruct BV; contradiction| | | |]; injection H as <- <-; (split; [reflexivity|discriminate]).
Qed.

(** ** and, or *)
Lemma bool_loop_and : forall s ps st b st', conjunction s ps st b st' -> exists n, forall m, (n <= m)%nat -> bool_loop (run m) andb ps s true st = (Val b, st').
Proof.
  intros s ps st b st' H. induction H as [st|p ps st v st' (k & E & N) B|p ps st v st1 b st' (k & E & N) B H (n & IH)].
  - exists 0%nat. reflexivity.
  - exists k. intros m L. cbn [bool_loop]. unfold bind. rewrite (ends_at _ _ _ _ _ _ m (mono_eval _ _) E N L). unfold some_var, ret, reads.
    rewrite (bool_value_bool _ _ _ B). reflexivity.
  - exists (Nat.max k n). intros m L. cbn [bool_loop]. unfold bind. rewrite (ends_at _ _ _ _ _ _ m (mono_eval _ _) E N) by lia. unfold some_var, ret, reads.
    rewrite (bool_value_bool _ _ _ B). cbn [andb]. apply IH. lia.
Qed.
Lemma bool_loop_and_inv : forall n s ps st b st', bool_loop (run n) andb ps s true st = (Val b, st') -> conjunction s ps st b st'.
Proof.
  intros n s ps. induction ps as [|p ps IH]; intros st b st' H; cbn [bool_loop] in H.
  - unfold ret in H. injection H as <- <-. constructor.
  - unfold bind in H. destruct (r_eval (run n) p s st) as [[r|?|?|?|] st1] eqn:E; try discriminate. destruct r as [v|]; [|discriminate].
    unfold some_var, ret, reads in H. destruct (bool_value v st1) as [c|?|?|?|] eqn:BV; try discriminate. apply bool_is in BV. destruct c; cbn [andb] in H.
    + eapply cj_true; [exists n; split; [exact E|discriminate]|exact BV|apply IH, H].
    + injection H as <- <-. eapply cj_false; [exists n; split; [exact E|discriminate]|exact BV].
Qed.
Lemma and_value : forall st s p name tok args, In name [$"and"; $"&&"] -> form st p name tok args -> standard st s name -> Forall plain args ->
  forall r st', evals p s st (Val r) st' <-> exists b, r = Some (vbool b) /\ conjunction s args (noted st s tok) b st'.
Proof.
  intros st s p name tok args IN F S PL r st'.
  rewrite (special_builtin _ _ _ _ _ _ BAnd F S) by (try assumption; destruct IN as [<-|[<-|[]]]; reflexivity). cbn [call_builtin]. split.
  - intros (n & H & _). unfold b_and, bind in H. destruct (bool_loop (run n) andb args s true (noted st s tok)) as [[b|?|?|?|] st1] eqn:E; try discriminate.
    unfold some, ret in H. injection H as <- <-. exists b. split; [reflexivity|]. eapply bool_loop_and_inv; eassumption.
  - intros (b & -> & H). apply bool_loop_and in H. destruct H as (n & H). exists n. split; [|discriminate]. unfold b_and, bind. rewrite H by lia. reflexivity.
Qed.
Lemma and_fails : forall st s p name tok args, In name [$"and"; $"&&"] -> form st p name tok args -> standard st s name -> Forall plain args ->
  forall o st', conjunction_fails s args (noted st s tok) o st' -> evals p s st o st'.
Proof.
  intros st s p name tok args IN F S PL o st' H.
  apply (special_builtin _ _ _ _ _ _ BAnd F S); try assumption; try (destruct IN as [<-|[<-|[]]]; reflexivity). cbn [call_builtin].
  assert (K : o <> NoFuel /\ exists n, forall m, (n <= m)%nat -> b_and (run m) args s (noted st s tok) = (o, st')).
  { clear F S PL. induction H as [p0 ps st0 o o' st' (k & E & N) FA|p0 ps st0 v st1 o st' (k & E & N) B H (NF & n & IH)].
    - split. { destruct o as [[v|]|?|?|?|]; unfold hands_on, fails in FA; subst; try discriminate; congruence. }
      exists k. intros m L. unfold b_and. cbn [bool_loop]. unfold bind. rewrite (ends_at _ _ _ _ _ _ m (mono_eval _ _) E N L).
      destruct o as [[v|]|?|?|?|]; unfold hands_on, fails in FA; subst; try reflexivity; contradiction.
    - split; [exact NF|]. exists (Nat.max k n). intros m L. specialize (IH m ltac:(lia)). unfold b_and in *. cbn [bool_loop]. unfold bind in *.
      rewrite (ends_at _ _ _ _ _ _ m (mono_eval _ _) E N) by lia. unfold some_var, ret at 1, reads. rewrite (bool_value_bool _ _ _ B). cbn [andb]. exact IH. }
  destruct K as (NF & n & K). exists n. split; [apply K; lia|exact NF].
Qed.
Lemma bool_loop_or : forall s ps st st', booleans s ps st st' -> exists n, forall m, (n <= m)%nat -> bool_loop (run m) orb ps s true st = (Val true, st').
Proof.
  intros s ps st st' H. induction H as [st|p ps st v b st1 st' (k & E & N) B H (n & IH)].
  - exists 0%nat. reflexivity.
  - exists (Nat.max k n). intros m L. cbn [bool_loop]. unfold bind. rewrite (ends_at _ _ _ _ _ _ m (mono_eval _ _) E N) by lia. unfold some_var, ret, reads.
    rewrite (bool_value_bool _ _ _ B). cbn [orb]. apply IH. lia.
Qed.
Lemma bool_loop_or_inv : forall n s ps st b st', bool_loop (run n) orb ps s true st = (Val b, st') -> b = true /\ booleans s ps st st'.
Proof.
  intros n s ps. induction ps as [|p ps IH]; intros st b st' H; cbn [bool_loop] in H.
  - unfold ret in H. injection H as <- <-. split; [reflexivity|constructor].
  - unfold bind in H. destruct (r_eval (run n) p s st) as [[r|?|?|?|] st1] eqn:E; try discriminate. destruct r as [v|]; [|discriminate].
    unfold some_var, ret, reads in H. destruct (bool_value v st1) as [c|?|?|?|] eqn:BV; try discriminate. apply bool_is in BV. cbn [orb] in H.
    apply IH in H. destruct H as [-> H]. split; [reflexivity|]. eapply bo_cons; [exists n; split; [exact E|discriminate]|exact BV|exact H].
Qed.
Lemma or_value : forall st s p name tok args, In name [$"or"; $"||"] -> form st p name tok args -> standard st s name -> Forall plain args ->
  forall r st', evals p s st (Val r) st' <-> exists b, r = Some (vbool b) /\ first_decides s args (noted st s tok) b st'.
Proof.
  intros st s p name tok args IN F S PL r st'.
  rewrite (special_builtin _ _ _ _ _ _ BOr F S) by (try assumption; destruct IN as [<-|[<-|[]]]; reflexivity). cbn [call_builtin]. split.
  - intros (n & H & _). unfold b_or, bind in H. destruct (bool_loop (run n) orb args s false (noted st s tok)) as [[b|?|?|?|] st1] eqn:E; try discriminate.
    unfold some, ret in H. injection H as <- <-. exists b. split; [reflexivity|]. destruct args as [|q qs]; cbn [bool_loop] in E.
    + unfold ret in E. injection E as <- <-. constructor.
    + unfold bind in E. destruct (r_eval (run n) q s (noted st s tok)) as [[x|?|?|?|] st2] eqn:E1; try discriminate. destruct x as [v|]; [|discriminate].
      unfold some_var, ret, reads in E. destruct (bool_value v st2) as [c|?|?|?|] eqn:BV; try discriminate. apply bool_is in BV. destruct c; cbn [orb] in E.
      * apply bool_loop_or_inv in E. destruct E as [-> E]. eapply fi_true; [exists n; split; [exact E1|discriminate]|exact BV|exact E].
      * injection E as <- <-. eapply fi_false; [exists n; split; [exact E1|discriminate]|exact BV].
  - intros (b & -> & H). assert (K : exists n, bool_loop (run n) orb args s false (noted st s tok) = (Val b, st')).
    { destruct H as [st0|q qs st0 v st1 (k & E & N) B|q qs st0 v st1 st2 (k & E & N) B H].
      - exists 0%nat. reflexivity.
      - exists k. cbn [bool_loop]. unfold bind. rewrite E. unfold some_var, ret, reads. rewrite (bool_value_bool _ _ _ B). reflexivity.
      - apply bool_loop_or in H. destruct H as (n & H). exists (Nat.max k n). cbn [bool_loop]. unfold bind. rewrite (ends_at _ _ _ _ _ _ (Nat.max k n) (mono_eval _ _) E N) by lia.
        unfold some_var, ret, reads. rewrite (bool_value_bool _ _ _ B). cbn [orb]. apply H. lia. }
    destruct K as (n & K). exists n. split; [|discriminate]. unfold b_or, bind. rewrite K. reflexivity.
Qed.

(** ** while, do *)
Lemma to_bool_truth : forall v b st, to_bool v st = Val b <-> truth v b.
Proof.
  intros v b st. split.
  - intro H. unfold to_bool in H. destruct (is_ty TBool v) eqn:T1; [apply tr_bool; eapply bool_is; eassumption|].
    destruct (is_ty TInt v) eqn:T2.
    { unfold int_value in H. rewrite T2 in H. destruct (v_val v) as [[]|] eqn:E; try discriminate. cbn in H. injection H as <-.
      apply tr_int. split; [unfold is_ty in T2; destruct (v_ty v); cbn in T2; congruence|exact E]. }
    destruct (is_ty TDouble v) eqn:T3.
    { unfold double_value in H. rewrite T3 in H. destruct (v_val v) as [[]|] eqn:E; try discriminate. cbn [obind] in H. injection H as <-.
      apply tr_dbl. split; [unfold is_ty in T3; destruct (v_ty v); cbn in T3; congruence|exact E]. }
    apply convert_fails in H. destruct H.
  - intros [v0 b0 [T E]|v0 z [T E]|v0 d [T E]]; unfold to_bool, bool_value, int_value, double_value, is_ty; rewrite T, E; reflexivity.
Qed.
Lemma while_done : forall c b s n r st r' st', rounds_of c b s n r st r' st' -> exists k, forall m, (k <= m)%nat -> r_while (run m) c b s r st = (Val r', st').
Proof.
  intros c b s n r st r' st' H.
  induction H as [r st v st' (k & E & N) T|n r st v st1 r1 st2 r2 st3 (k & E & N) T (k2 & E2 & N2) (sc & H & IR) _ (k3 & IH)|r st v st1 r1 st2 (k & E & N) T (k2 & E2 & N2) (sc & H & IR)].
  - exists (S k). intros m L. destruct m as [|m]; [lia|]. cbn [run step r_while]. unfold while_loop, bind. rewrite (ends_at _ _ _ _ _ _ m (mono_eval _ _) E N) by lia.
    unfold some_var, ret, reads. rewrite (proj2 (to_bool_truth _ _ _) T). reflexivity.
  - exists (S (Nat.max k (Nat.max k2 k3))). intros m L. destruct m as [|m]; [lia|]. cbn [run step r_while]. unfold while_loop, bind. rewrite (ends_at _ _ _ _ _ _ m (mono_eval _ _) E N) by lia.
    unfold some_var, ret at 1, reads. rewrite (proj2 (to_bool_truth _ _ _) T). rewrite (ends_at _ _ _ _ _ _ m (mono_eval _ _) E2 N2) by lia.
    rewrite (get_at _ _ _ H), IR. apply IH. lia.
  - exists (S (Nat.max k k2)). intros m L. destruct m as [|m]; [lia|]. cbn [run step r_while]. unfold while_loop, bind. rewrite (ends_at _ _ _ _ _ _ m (mono_eval _ _) E N) by lia.
    unfold some_var, ret at 1, reads. rewrite (proj2 (to_bool_truth _ _ _) T). rewrite (ends_at _ _ _ _ _ _ m (mono_eval _ _) E2 N2) by lia.
    rewrite (get_at _ _ _ H), IR. reflexivity.
Qed.
Lemma while_inv : forall c b s m r st r' st', r_while (run m) c b s r st = (Val r', st') -> exists n, rounds_of c b s n r st r' st'.
Proof.
  intros c b s m. induction m as [|m IH]; intros r st r' st' H; [cbn in H; unfold no_fuel, lift in H; discriminate|].
  cbn [run step r_while] in H. unfold while_loop, bind in H. destruct (r_eval (run m) c s st) as [[x|?|?|?|] st1] eqn:E; try discriminate. destruct x as [v|]; [|discriminate].
  unfold some_var, ret at 1, reads in H. destruct (to_bool v st1) as [g|?|?|?|] eqn:T; try discriminate. apply to_bool_truth in T. destruct g.
  - destruct (r_eval (run m) b s st1) as [[x|?|?|?|] st2] eqn:E2; try discriminate. destruct (get_scope s st2) as [sc|?|?|?|] eqn:G; try discriminate.
    assert (G' : scope_at st2 s = Some sc). { unfold get_scope in G. unfold scope_at. destruct (PositiveMap.find s (st_scopes st2)); congruence. }
    destruct (s_inret sc) eqn:IR.
    + unfold ret in H. injection H as <- <-. exists 1%nat. eapply ro_return; [exists m; split; [exact E|discriminate]|exact T|exists m; split; [exact E2|discriminate]|exists sc; split; assumption].
    + apply IH in H. destruct H as (n & H). exists (S n). eapply ro_more; [exists m; split; [exact E|discriminate]|exact T|exists m; split; [exact E2|discriminate]|exists sc; split; assumption|exact H].
  - unfold ret in H. injection H as <- <-. exists 0%nat. eapply ro_end; [exists m; split; [exact E|discriminate]|exact T].
Qed.
Lemma while_value : forall st s p tok c b, form st p $"while" tok [c; b] -> standard st s $"while" -> Forall plain [c; b] -> forall r st',
  evals p s st (Val r) st' <-> exists n, rounds_of c b s n (Some vundef) (noted st s tok) r st'.
Proof.
  intros st s p tok c b F S PL r st'. rewrite (special_builtin _ _ _ _ _ _ BWhile F S) by (try reflexivity; assumption). cbn [call_builtin].
  change (fun n => b_while (run n) [c; b] s) with (fun n => r_while (run n) c b s (Some vundef)). split.
  - intros (n & H & _). eapply while_inv, H.
  - intros (n & H). apply while_done in H. destruct H as (k & H). exists k. split; [apply H; lia|discriminate].
Qed.
Lemma do_done : forall s ps r st r' st', in_sequence s ps r st r' st' -> exists k, forall m, (k <= m)%nat -> do_loop (run m) ps s r st = (Val r', st').
Proof.
  intros s ps r st r' st' H. induction H as [r st|i l ps r st r1 st1 r2 st2 (k & E & N) (sc & H & IR) _ (k2 & IH)|i l ps r st r1 st1 (k & E & N) (sc & H & IR)].
  - exists 0%nat. reflexivity.
  - exists (Nat.max k k2). intros m L. cbn [do_loop]. unfold bind, lift. cbn [deref obj_is_list]. rewrite (ends_at _ _ _ _ _ _ m (mono_eval _ _) E N) by lia.
    unfold reads. rewrite (get_at _ _ _ H), IR. apply IH. lia.
  - exists k. intros m L. cbn [do_loop]. unfold bind, lift. cbn [deref obj_is_list]. rewrite (ends_at _ _ _ _ _ _ m (mono_eval _ _) E N) by lia.
    unfold reads. rewrite (get_at _ _ _ H), IR. reflexivity.
Qed.
Lemma do_inv : forall n s ps r st r' st', do_loop (run n) ps s r st = (Val r', st') -> in_sequence s ps r st r' st'.
Proof.
  intros n s ps. induction ps as [|p ps IH]; intros r st r' st' H; cbn [do_loop] in H.
  - unfold ret in H. injection H as <- <-. constructor.
  - unfold bind, lift in H. destruct p as [|i o]; [discriminate|]. cbn [deref] in H. destruct (obj_is_list o) eqn:OL.
    + destruct o as [| | | | |l| | | | | |v]; try discriminate. destruct (r_eval (run n) (P i (OList l)) s st) as [[x|?|?|?|] st1] eqn:E; try discriminate.
      unfold reads in H. destruct (get_scope s st1) as [sc|?|?|?|] eqn:G; try discriminate.
      assert (G' : scope_at st1 s = Some sc). { unfold get_scope in G. unfold scope_at. destruct (PositiveMap.find s (st_scopes st1)); congruence. }
      destruct (s_inret sc) eqn:IR.
      * unfold ret in H. injection H as <- <-. eapply sq_return; [exists n; split; [exact E|discriminate]|exists sc; split; assumption].
      * eapply sq_next; [exists n; split; [exact E|discriminate]|exists sc; split; assumption|apply IH, H].
    + unfold throw_token, bind, reads in H. destruct (dump_stack None s st); try discriminate. destruct (get_scope s st); discriminate.
Qed.
Lemma do_value : forall st s p name tok args, In name [$"do"; $"begin"] -> form st p name tok args -> standard st s name -> Forall plain args -> forall r st',
  evals p s st (Val r) st' <-> in_sequence s args (Some vundef) (noted st s tok) r st'.
Proof.
  intros st s p name tok args IN F S PL r st'.
  rewrite (special_builtin _ _ _ _ _ _ BDo F S) by (try assumption; destruct IN as [<-|[<-|[]]]; reflexivity). cbn [call_builtin]. split.
  - intros (n & H & _). eapply do_inv, H.
  - intro H. apply do_done in H. destruct H as (k & H). exists k. split; [apply H; lia|discriminate].
Qed.

(** ** Atoms *)
Lemma eval_atom : forall i v s st, v_ty v <> TSym -> v_ty v <> TList -> evals (P i (OVar v)) s st (Val (Some v)) st.
Proof.
  intros i v s st N1 N2. exists 1%nat. split; [|discriminate]. rewrite eval_unfold. unfold eval_ast. unfold is_ty, is_list, is_nil, is_ty.
  destruct (v_ty v); try congruence; reflexivity.
Qed.
Lemma like_nid : forall st n, like st (with_nid n st).
Proof. intros st n. split; [|split]; intros; [assumption|reflexivity|]. unfold scope_at in *. cbn [st_scopes with_nid] in *. assert (a = b) by congruence. subst. auto. Qed.
Lemma same_nid : forall st n, same_data st (with_nid n st).
Proof. intros. repeat split. Qed.
(** What a name that is bound to an object stands for as a value. *)
Lemma eval_symbol : forall i v name s st r, is_sym v name -> sees st s name r ->
  evals (P i (OVar v)) s st (match r with Some q => match var_of_ptr q with Val w => Val (Some w) | Throw e => Throw e | Undef u => Undef u | Unmod t => Unmod t | NoFuel => NoFuel end | None => Val (Some v) end)
    (with_nid (Pos.succ (st_nid st)) st).
Proof.
  intros i v name s st r [T V] S. exists 1%nat. split.
  - rewrite eval_unfold. unfold eval_ast, is_ty. rewrite T. tys. unfold bind, new_var_ptr, new_ptr.
    rewrite (resolve_sees _ s name r); [|eapply like_sees; [apply like_nid|exact S]|apply ptr_str_sym; split; assumption].
    destruct r as [[|j o]|]; reflexivity.
  - destruct r as [[|j o]|]; discriminate.
Qed.
Lemma symbol_value : forall p name s st j w, expr_sym p name -> sees st s name (Some (P j (OVar w))) ->
  exists st', evals p s st (Val (Some w)) st' /\ same_data st st'.
Proof. intros p name s st j w (i & v & -> & T) S. eexists. split; [exact (eval_symbol i v name s st _ T S)|apply same_nid]. Qed.
Lemma symbol_itself : forall i v name s st, is_sym v name -> sees st s name None ->
  exists st', evals (P i (OVar v)) s st (Val (Some v)) st' /\ same_data st st'.
Proof. intros i v name s st T S. eexists. split; [exact (eval_symbol i v name s st _ T S)|apply same_nid]. Qed.

(** ** Assignment *)
Lemma find_scope_add : forall st t sc u, scope_at (with_scopes (PositiveMap.add t sc (st_scopes st)) st) u = if Pos.eqb u t then Some sc else scope_at st u.
Proof. intros. unfold scope_at. cbn [st_scopes with_scopes]. apply find_add. Qed.
Lemma set_becomes : forall st t name v sc, scope_at st t = Some sc ->
  scope_set t name (P (st_nid st) (OVar v)) (with_nid (Pos.succ (st_nid st)) st) =
    (Val tt, snd (scope_set t name (P (st_nid st) (OVar v)) (with_nid (Pos.succ (st_nid st)) st))) /\
  var_becomes st (snd (scope_set t name (P (st_nid st) (OVar v)) (with_nid (Pos.succ (st_nid st)) st))) t name v.
Proof.
  intros st t name v sc H. unfold scope_set, mod_scope, bind, reads.
  assert (H' : scope_at (with_nid (Pos.succ (st_nid st)) st) t = Some sc) by exact H. rewrite (get_at _ _ _ H'). unfold put_scope. cbn [snd]. split; [reflexivity|].
  set (st1 := with_nid _ _) in *. set (sc' := set_vars _ _).
  assert (F : forall u, scope_at (with_scopes (PositiveMap.add t sc' (st_scopes st1)) st1) u = if Pos.eqb u t then Some sc' else scope_at st u).
  { intro u. rewrite find_scope_add. reflexivity. }
  repeat (match goal with |- _ /\ _ => split | |- var_becomes _ _ _ _ _ => unfold var_becomes end); try reflexivity.
  - exists (st_nid st). unfold var_at. rewrite F, Pos.eqb_refl. subst sc'. cbn [s_vars set_vars]. rewrite lookup_set.
    destruct (list_eq_dec ascii_dec name name); [reflexivity|congruence].
  - intros u n N. unfold var_at. rewrite F. destruct (Pos.eqb_spec u t) as [->|Q]; [|reflexivity]. rewrite H. subst sc'. cbn [s_vars set_vars].
    rewrite lookup_set. destruct (list_eq_dec ascii_dec n name) as [->|]; [congruence|reflexivity].
  - intros u Q. rewrite F. destruct (Pos.eqb_spec u t); [contradiction|reflexivity].
  - intro u. unfold scope_exists. rewrite F. destruct (Pos.eqb_spec u t) as [->|Q]; [rewrite H; split; intros _; eexists; reflexivity|tauto].
  - intros u a b A B. rewrite F in B. destruct (Pos.eqb_spec u t) as [->|Q].
    + assert (a = sc) by congruence. subst a. injection B as <-. subst sc'. repeat split.
    + assert (a = b) by congruence. subst b. repeat split.
Qed.
Lemma enclosing_exists : forall st name s c p, enclosing st name s (Some (c, p)) -> scope_exists st c.
Proof. intros st name s c p H. remember (Some (c, p)) as r eqn:R. induction H; try discriminate; [injection R as <- <-; assumption|auto]. Qed.
Lemma set_assigns : forall st s name t v, name <> [] -> assigns st s name t -> exists st',
  set_in_scopes s name (P (st_nid st) (OVar v)) (with_nid (Pos.succ (st_nid st)) st) = (Val tt, st') /\ var_becomes st st' t name v.
Proof.
  intros st s name t v NE A. set (st1 := with_nid (Pos.succ (st_nid st)) st). assert (L : like st st1) by apply like_nid.
  assert (E : set_in_scopes s name (P (st_nid st) (OVar v)) st1 = scope_set t name (P (st_nid st) (OVar v)) st1 /\ scope_exists st t).
  { unfold set_in_scopes. destruct name as [|c0 name']; [congruence|]. set (name := c0 :: name') in *. unfold bind, reads.
    destruct A as [p X V|c p X V EN|sc p H V EN X G].
    - rewrite find_var by exact X. change (var_at st1 s name) with (var_at st s name). rewrite V. auto.
    - rewrite find_var by exact X. change (var_at st1 s name) with (var_at st s name). rewrite V.
      rewrite (chain_ok _ _ _ _ (like_enclosing _ _ _ _ _ L EN)). split; [reflexivity|eapply enclosing_exists; eassumption].
    - assert (H' : scope_at st1 s = Some sc) by exact H. rewrite find_var by (eapply exists_at; exact H'). change (var_at st1 s name) with (var_at st s name). rewrite V.
      rewrite (chain_ok _ _ _ _ (like_enclosing _ _ _ _ _ L EN)). rewrite (get_at _ _ _ H'). rewrite find_var by exact X.
      change (var_at st1 (s_global sc) name) with (var_at st (s_global sc) name). rewrite G. auto. }
  destruct E as [E (sc & X)]. destruct (set_becomes st t name v sc X) as [K1 K2]. eexists. split; [rewrite E; exact K1|exact K2].
Qed.
(** The call stack as text. *)
Lemma stack_line_ok : forall lv i sc, fine_text (s_name sc) -> fine_text (s_module sc) -> exists t, stack_line lv i sc = Val t.
Proof.
  intros lv i sc F1 F2. unfold stack_line.
  set (a0 := match lv with Some l => if (l =? i)%Z then $"-->" else $"   " | None => $"   " end).
  set (a3 := match s_token sc with Some t => z_to_string (tk_line t) | None => size_max_str end).
  pose (ps := [PWide "0"%char $"3" 3; PWide "1"%char $"5" 5; PLit $" name="; PWide "2"%char $"-35" (-35); PLit $" lineno="; PWide "3"%char $"-4" (-4);
               PLit $" module="; PHole "4"%char; PLit [c_nl]]).
  change ($"{0,3}{1,5} name={2,-35} lineno={3,-4} module={4}" ++ [c_nl]) with (template ps).
  eexists. apply Format_full.
  - assert (K : forall k z, is_digit k = true -> (-2147483648 < z <= 2147483647)%Z -> piece_ok (PWide k (z_to_string z) z)).
    { intros k z D B. split; [exact D|split; [apply z_to_string_int_text|exact B]]. }
    unfold ps. repeat (apply Forall_cons || apply Forall_nil).
    all: try (cbn; intuition discriminate).
    + exact (K "0"%char 3%Z eq_refl ltac:(lia)).
    + exact (K "1"%char 5%Z eq_refl ltac:(lia)).
    + exact (K "2"%char (-35)%Z eq_refl ltac:(lia)).
    + exact (K "3"%char (-4)%Z eq_refl ltac:(lia)).
  - repeat (apply Forall_cons || apply Forall_nil); try apply int_no_brace.
    + unfold a0. destruct lv as [l|]; [destruct (l =? i)%Z|]; (split; [cbn; intuition discriminate|discriminate]).
    + split; [apply F1|apply F1].
    + unfold a3. destruct (s_token sc); [apply int_no_brace|split; [cbn; intuition discriminate|discriminate]].
    + split; [apply F2|apply F2].
  - cbn. intros k [].
Qed.
Lemma dump_lines_ok : forall lv scs acc, Forall (fun sc => fine_text (s_name sc) /\ fine_text (s_module sc)) scs -> exists t, dump_lines lv scs acc = Val t.
Proof.
  intros lv scs. induction scs as [|sc scs IH]; intros acc H; [eexists; reflexivity|]. inversion H as [|? ? [F1 F2] H']; subst. cbn [dump_lines].
  destruct (stack_line_ok lv (Z.of_nat (length (sc :: scs))) sc F1 F2) as (t & ->). cbn [obind]. apply IH, H'.
Qed.
Lemma dump_ok : forall st s lv, printable st s -> exists t, dump_stack lv s st = Val t.
Proof.
  intros st s lv H. unfold dump_stack, call_stack.
  assert (K : forall n, (Pos.to_nat s <= n)%nat -> exists scs, stack_of n s st = Val scs /\ Forall (fun sc => fine_text (s_name sc) /\ fine_text (s_module sc)) scs).
  { induction H as [s sc H PR F1 F2|s sc c H PR L F1 F2 _ IH]; intros n B; (destruct n as [|n]; [lia|]); cbn [stack_of]; rewrite (get_at _ _ _ H); cbn [obind]; rewrite PR.
    - exists [sc]. split; [reflexivity|]. repeat constructor; first [apply F1|apply F2].
    - destruct (IH n ltac:(lia)) as (scs & -> & F). exists (sc :: scs). split; [reflexivity|]. constructor; [split; assumption|exact F]. }
  destruct (K _ (Nat.le_refl _)) as (scs & -> & F). cbn [obind]. apply dump_lines_ok, F.
Qed.
Lemma printable_at : forall st s, printable st s -> exists sc, scope_at st s = Some sc.
Proof. intros st s []; eauto. Qed.
Lemma throw_scope_ok : forall A m st s, printable st s -> exists i, throw_scope (A := A) m s st = (Throw (ELisp m i), st).
Proof.
  intros A m st s H. unfold throw_scope, bind, reads, scope_exn. destruct (dump_ok st s None H) as (t & ->). destruct (printable_at _ _ H) as (sc & X).
  cbn [obind]. rewrite (get_at _ _ _ X). cbn [obind]. eexists. reflexivity.
Qed.
Lemma like_printable : forall st st', st_scopes st' = st_scopes st -> forall s, printable st s -> printable st' s.
Proof.
  intros st st' E s H. assert (Q : forall u, scope_at st' u = scope_at st u) by (intro u; unfold scope_at; rewrite E; reflexivity).
  induction H; [eapply pr_last|eapply pr_more]; try rewrite Q; eauto.
Qed.

(** (setf name expr) *)
Lemma scope_restore : forall st s sc, scope_at st s = Some sc -> with_scopes (PositiveMap.add s sc (st_scopes st)) st = st.
Proof. intros st s sc H. rewrite pm_add_same by exact H. destruct st; reflexivity. Qed.
Lemma form_scope : forall st s name f, means st s name f -> exists sc, scope_at st s = Some sc.
Proof. intros st s name f (sc & gs & i & v & H & _). eauto. Qed.
Lemma standard_scope : forall st s name tok, standard st s name -> exists sc, scope_at (noted st s tok) s = Some sc.
Proof. intros st s name tok (f & _ & M). destruct (form_scope _ _ _ _ M) as (sc & H). apply noted_exists. exists sc. exact H. Qed.
Lemma setf_run : forall st s i v name a1 R sc, is_sym v name -> scope_at st s = Some sc ->
  b_setf R [P i (OVar v); a1] s st =
  bind (r_eval R a1 s) (fun vr => bind (some_var vr) (fun value => bind (new_var_ptr value) (fun np =>
    bind (set_in_scopes s name np) (fun _ => some value)))) st.
Proof.
  intros st s i v name a1 R sc SY H. unfold b_setf. unfold bind at 1. unfold check_args. cbn [length Nat.eqb negb]. unfold ret at 1.
  unfold bind at 1, reads at 1. rewrite (get_at _ _ _ H). unfold bind at 1, mod_scope at 1, bind at 1, reads at 1. rewrite (get_at _ _ _ H).
  unfold put_scope at 1. set (st1 := with_scopes _ _). unfold bind at 1, arg at 1. cbn [nth_error]. unfold ret at 1.
  unfold bind at 1, eval_arg_if_needed at 1, bind at 1, lift at 1. cbn [deref obj_is_list vref_obj]. unfold ret at 1.
  assert (H1 : scope_at st1 s = Some (set_needlv true sc)) by (unfold st1; rewrite find_scope_add, Pos.eqb_refl; reflexivity).
  unfold bind at 1, mod_scope at 1, bind at 1, reads at 1. rewrite (get_at _ _ _ H1). unfold put_scope at 1.
  assert (E : with_scopes (PositiveMap.add s (set_needlv (s_needlv sc) (set_needlv true sc)) (st_scopes st1)) st1 = st).
  { replace (set_needlv (s_needlv sc) (set_needlv true sc)) with sc by (destruct sc; reflexivity). unfold st1. cbn [st_scopes with_scopes].
    rewrite pm_add_add, pm_add_same by exact H. destruct st; reflexivity. }
  rewrite E. unfold bind at 1, reads at 1. rewrite (var_str_sym _ _ _ SY). unfold bind at 1, arg at 1. cbn [nth_error]. unfold ret at 1.
  unfold bind. destruct (r_eval R a1 s st) as [[vr|?|?|?|] st2]; try reflexivity. unfold some_var at 1, ret at 1.
  destruct vr as [w|]; [|reflexivity]. unfold some_var, ret at 1. unfold new_var_ptr, new_ptr. unfold is_ty. destruct SY as [-> _]. reflexivity.
Qed.
Lemma mono_setf_tail : forall st s p tok a0 a1 name v st1, form st p $"setf" tok [a0; a1] -> standard st s $"setf" -> expr_sym a0 name -> plain a1 ->
  evals a1 s (noted st s tok) (Val (Some v)) st1 -> forall o st',
  bind (set_in_scopes s name (P (st_nid st1) (OVar v))) (fun _ => some v) (with_nid (Pos.succ (st_nid st1)) st1) = (o, st') -> o <> NoFuel ->
  evals p s st o st'.
Proof.
  intros st s p tok a0 a1 name v st1 F S (i & w & -> & SY) PL (k & E & N) o st' H NF.
  assert (PA : Forall plain [P i (OVar w); a1]). { apply Forall_cons; [|apply Forall_cons; [exact PL|apply Forall_nil]]. right. destruct SY as [-> _]. split; discriminate. }
  apply (special_builtin _ _ _ _ _ _ BSetf F S); try reflexivity; try assumption. exists k. split; [|exact NF]. cbn [call_builtin].
  destruct (standard_scope st s _ tok S) as (sc & X). rewrite (setf_run _ _ _ _ name _ _ sc SY X). unfold bind at 1. rewrite E.
  unfold some_var, bind at 1, ret at 1. unfold bind at 1, new_var_ptr, new_ptr. exact H.
Qed.
Lemma setf_sets : forall st s p tok a0 a1 name v st1 t, form st p $"setf" tok [a0; a1] -> standard st s $"setf" -> expr_sym a0 name -> name <> [] -> plain a1 ->
  evals a1 s (noted st s tok) (Val (Some v)) st1 -> assigns st1 s name t ->
  exists st', evals p s st (Val (Some v)) st' /\ var_becomes st1 st' t name v.
Proof.
  intros st s p tok a0 a1 name v st1 t F S X NE PL E A. destruct (set_assigns st1 s name t v NE A) as (st' & H & B).
  exists st'. split; [|exact B]. eapply mono_setf_tail; try eassumption; [|discriminate]. unfold bind. rewrite H. reflexivity.
Qed.
Lemma setf_unbound : forall st s p tok a0 a1 name v st1, form st p $"setf" tok [a0; a1] -> standard st s $"setf" -> expr_sym a0 name -> name <> [] -> plain a1 ->
  evals a1 s (noted st s tok) (Val (Some v)) st1 -> unassignable st1 s name -> printable st1 s ->
  exists i st', evals p s st (Throw (ELisp ($"Symbol " ++ name ++ $" not found") i)) st' /\ same_data st1 st'.
Proof.
  intros st s p tok a0 a1 name v st1 F S X NE PL E (sc & H & V & EN & XG & G) PR.
  set (st2 := with_nid (Pos.succ (st_nid st1)) st1). assert (PR2 : printable st2 s) by (exact (like_printable st1 st2 eq_refl s PR)).
  destruct (throw_scope_ok unit ($"Symbol " ++ name ++ $" not found") st2 s PR2) as (i & T). exists i, st2. split; [|apply same_nid].
  eapply mono_setf_tail; try eassumption; [|discriminate]. unfold bind at 1. fold st2.
  assert (K : set_in_scopes s name (P (st_nid st1) (OVar v)) st2 = throw_scope ($"Symbol " ++ name ++ $" not found") s st2).
  { unfold set_in_scopes. destruct name as [|c0 name']; [congruence|]. unfold bind, reads.
    assert (H' : scope_at st2 s = Some sc) by exact H. rewrite find_var by (eapply exists_at; exact H'). change (var_at st2 s) with (var_at st1 s). rewrite V.
    rewrite (chain_ok _ _ _ _ (like_enclosing _ st2 _ _ _ (like_nid _ _) EN)). rewrite (get_at _ _ _ H'). rewrite find_var by exact XG.
    change (var_at st2 (s_global sc)) with (var_at st1 (s_global sc)). rewrite G. reflexivity. }
  rewrite K, T. reflexivity.
Qed.

(** ** Reading after assigning *)
Lemma enclosing_var : forall st name s c p, enclosing st name s (Some (c, p)) -> var_at st c name = Some p.
Proof. intros st name s c p H. remember (Some (c, p)) as r eqn:R. induction H; try discriminate; [injection R as <- <-; assumption|auto]. Qed.
(** After the change the name is found in the same scope as before. *)
Lemma enclosing_becomes : forall st st' t name v s p, var_becomes st st' t name v -> enclosing st name s (Some (t, p)) ->
  exists i, enclosing st' name s (Some (t, P i (OVar v))).
Proof.
  intros st st' t name v s p ((i & V) & O & _ & X & SC & _) H. assert (VT := enclosing_var _ _ _ _ _ H). remember (Some (t, p)) as r eqn:R. exists i.
  induction H as [s sc H C|s sc d q H C L XX W|s sc d r H C L XX W R' IH]; try discriminate;
    destruct (proj2 (X s) (ex_intro _ _ H)) as (sc' & H'); destruct (SC _ _ _ H H') as (_ & _ & _ & CL & _).
  - injection R as -> ->. eapply en_here; [exact H'|rewrite CL; exact C|exact L|apply X; exact XX|exact V].
  - eapply en_up; [exact H'|rewrite CL; exact C|exact L|apply X; exact XX| |exact (IH R)]. rewrite O; [exact W|congruence].
Qed.
Lemma enclosing_none : forall st st' t name v s, var_becomes st st' t name v -> enclosing st name s None -> (exists p, var_at st t name = Some p) ->
  forall c, (exists sc, scope_at st s = Some sc /\ s_closure sc = Some c) -> c <> t.
Proof.
  intros st st' t name v s _ H (p & VT) c (sc & E & C). inversion H as [? sc' E' C'|? sc' d q|? sc' d q E' C' L XX W R]; subst; [congruence|].
  assert (d = c) by congruence. subst d. congruence.
Qed.
Lemma read_back : forall st st' s sc t name v, scope_at st s = Some sc -> scope_exists st (s_global sc) -> assigns st s name t -> var_becomes st st' t name v ->
  (t = s \/ t = s_global sc \/ var_at st (s_global sc) name = None) -> exists i, sees st' s name (Some (P i (OVar v))).
Proof.
  intros st st' s sc t name v H XG A B C. assert (B' := B). destruct B as ((i & V) & O & _ & X & SC & _).
  assert (XS : scope_exists st' s) by (apply X; eexists; exact H). destruct XS as (sc' & H'). destruct (SC _ _ _ H H') as (_ & _ & GL & CL & _).
  assert (XG' : scope_exists st' (s_global sc')) by (rewrite GL; apply X; exact XG).
  destruct (Pos.eq_dec t s) as [->|NS].
  { exists i. apply se_own; [eexists; exact H'|exact V]. }
  assert (VS : var_at st s name = None). { destruct A as [p X1 V1|c p X1 V1 EN|sc1 p H1 V1 EN X1 G]; [congruence|exact V1|exact V1]. }
  assert (VS' : var_at st' s name = None) by (rewrite O; [exact VS|congruence]).
  destruct (Pos.eq_dec t (s_global sc)) as [E|NG].
  { exists i. eapply se_global; [exact H'|exact VS'|exact XG'|]. rewrite GL, <- E. exact V. }
  destruct A as [p X1 V1|c p X1 V1 EN|sc1 p H1 V1 EN X1 G]; [congruence| |assert (sc1 = sc) by congruence; subst sc1; congruence].
  destruct (enclosing_becomes _ _ _ _ _ _ _ B' EN) as (j & EN'). exists j. destruct C as [C|[C|C]]; try congruence.
  eapply se_enclosing; [exact H'|exact VS'|exact XG'| |exact EN']. rewrite GL, O; [exact C|congruence].
Qed.
Lemma stale_read : forall st st' s sc t name v w, scope_at st s = Some sc -> scope_exists st (s_global sc) -> assigns st s name t -> var_becomes st st' t name v ->
  t <> s -> t <> s_global sc -> var_at st (s_global sc) name = Some w -> sees st' s name (Some w).
Proof.
  intros st st' s sc t name v w H XG A B NS NG G. destruct B as (_ & O & _ & X & SC & _).
  assert (XS : scope_exists st' s) by (apply X; eexists; exact H). destruct XS as (sc' & H'). destruct (SC _ _ _ H H') as (_ & _ & GL & CL & _).
  assert (VS : var_at st s name = None). { destruct A as [p X1 V1|c p X1 V1 EN|sc1 p H1 V1 EN X1 G1]; [congruence|exact V1|exact V1]. }
  eapply se_global; [exact H'|rewrite O; [exact VS|congruence]|rewrite GL; apply X; exact XG|]. rewrite GL, O; [exact G|congruence].
Qed.

(** ** def, gdef *)
Lemma def_tail : forall b st s p name0 tok a0 a1 name v st1 tgt, (name0, b) = ($"def", BDef) \/ (name0, b) = ($"gdef", BGDef) ->
  form st p name0 tok [a0; a1] -> standard st s name0 -> expr_sym a0 name -> plain a1 ->
  evals a1 s (noted st s tok) (Val (Some v)) st1 -> (exists sc, scope_at st s = Some sc /\ tgt = if list_eq_dec ascii_dec name0 $"def" then s else s_global sc) ->
  forall o st', bind (scope_set tgt name (P (st_nid st1) (OVar v))) (fun _ => some v) (with_nid (Pos.succ (st_nid st1)) st1) = (o, st') -> o <> NoFuel ->
  evals p s st o st'.
Proof.
  intros b st s p name0 tok a0 a1 name v st1 tgt NB F S (i & w & -> & SY) PL (k & E & N) (sc & X & T) o st' H NF.
  assert (PA : Forall plain [P i (OVar w); a1]). { apply Forall_cons; [|apply Forall_cons; [exact PL|apply Forall_nil]]. right. destruct SY as [-> _]. split; discriminate. }
  apply (special_builtin _ _ _ _ _ _ b F S); try assumption; try (destruct NB as [Q|Q]; injection Q as -> ->; reflexivity). exists k. split; [|exact NF].
  assert (DH : forall nm, def_helper (run k) nm tgt [P i (OVar w); a1] s (noted st s tok) = (o, st')).
  { intro nm. unfold def_helper. unfold bind at 1, check_args. cbn [length Nat.eqb negb]. unfold ret at 1. unfold bind at 1, arg at 1. cbn [nth_error]. unfold ret at 1.
    unfold bind at 1, eval_arg_if_needed at 1, bind at 1, lift at 1. cbn [deref obj_is_list vref_obj]. unfold ret at 1. unfold bind at 1, some_var at 1, ret at 1.
    unfold is_ty. assert (SY' := SY). destruct SY as [T1 T2]. rewrite T1. tys. cbn [orb]. unfold bind at 1, arg at 1. cbn [nth_error]. unfold ret at 1.
    unfold bind at 1. rewrite E. unfold bind at 1, some_var at 1, ret at 1. unfold bind at 1, new_var_ptr, new_ptr. unfold bind at 1, reads at 1.
    rewrite (var_str_sym _ _ _ SY'). exact H. }
  destruct NB as [Q|Q]; injection Q as -> ->; cbn [call_builtin].
  - change (tgt = s) in T. subst tgt. apply DH.
  - change (tgt = s_global sc) in T. unfold b_gdef, bind at 1, global_of, bind at 1, reads.
    destruct (standard_scope st s _ tok S) as (sc' & X'). rewrite (get_at _ _ _ X'). unfold ret at 1.
    assert (G : s_global sc' = s_global sc). { destruct (like_noted st s tok) as (_ & _ & Q). destruct (Q _ _ _ X X') as (Q1 & _). exact Q1. }
    rewrite G, <- T. apply DH.
Qed.
Lemma numbered_noted : forall st s tok, numbered st -> numbered (noted st s tok).
Proof.
  intros st s tok N u sc H. rewrite noted_scope in H. assert (E : st_nsid (noted st s tok) = st_nsid st). { unfold noted. destruct tok; [|reflexivity]. destruct (scope_at st s); reflexivity. }
  rewrite E. destruct tok as [t|]; [|eapply N; exact H]. destruct (Pos.eqb u s); [|eapply N; exact H]. destruct (scope_at st u) as [x|] eqn:Q; [|discriminate]. eapply N, Q.
Qed.
Lemma scope_persists : forall p s st o st' u, numbered st -> evals p s st o st' -> scope_exists st u -> scope_exists st' u.
Proof. intros p s st o st' u N E (sc & H). destruct (frame_evals _ _ _ _ _ N E _ _ H) as (sc' & H' & _). exists sc'. exact H'. Qed.
Lemma def_binds : forall st s p tok a0 a1 name v st1, numbered st -> form st p $"def" tok [a0; a1] -> standard st s $"def" -> expr_sym a0 name -> plain a1 ->
  evals a1 s (noted st s tok) (Val (Some v)) st1 -> exists st', evals p s st (Val (Some v)) st' /\ var_becomes st1 st' s name v.
Proof.
  intros st s p tok a0 a1 name v st1 NU F S X PL E.
  assert (XS : scope_exists st1 s). { eapply scope_persists; [apply numbered_noted, NU|exact E|]. apply (standard_scope st s _ tok S). }
  destruct XS as (sc1 & H1). destruct (set_becomes st1 s name v sc1 H1) as [K1 K2]. eexists. split; [|exact K2].
  destruct S as (f & SB & M). destruct (form_scope _ _ _ _ M) as (sc & H).
  eapply (def_tail BDef); try eassumption; [left; reflexivity|exists f; split; assumption|exists sc; split; [exact H|reflexivity]| |discriminate].
  change (if list_eq_dec ascii_dec $"def" $"def" then s else s_global sc) with s. unfold bind. rewrite K1. reflexivity.
Qed.
Lemma gdef_binds : forall st s sc p tok a0 a1 name v st1, numbered st -> form st p $"gdef" tok [a0; a1] -> standard st s $"gdef" -> expr_sym a0 name -> plain a1 ->
  scope_at st s = Some sc -> evals a1 s (noted st s tok) (Val (Some v)) st1 ->
  exists st', evals p s st (Val (Some v)) st' /\ var_becomes st1 st' (s_global sc) name v.
Proof.
  intros st s sc p tok a0 a1 name v st1 NU F S X PL H E.
  assert (XG : scope_exists st (s_global sc)). { destruct S as (f & _ & (sc' & gs & i & w & H' & G & _)). assert (sc' = sc) by congruence. subst. eexists; exact G. }
  assert (XS : scope_exists st1 (s_global sc)). { eapply scope_persists; [apply numbered_noted, NU|exact E|]. apply noted_exists, XG. }
  destruct XS as (sc1 & H1). destruct (set_becomes st1 (s_global sc) name v sc1 H1) as [K1 K2]. eexists. split; [|exact K2].
  eapply (def_tail BGDef); try eassumption; [right; reflexivity|exists sc; split; [exact H|reflexivity]| |discriminate].
  change (if list_eq_dec ascii_dec $"gdef" $"def" then s else s_global sc) with (s_global sc). unfold bind. rewrite K1. reflexivity.
Qed.

(** ** Concrete states *)
Lemma std_main : forall st name, match builtin_fn name with
  | None => False
  | Some f => match scope_at st main_sid with None => False | Some sc => s_global sc = main_sid /\ s_tracing sc = false end /\
    match var_at st main_sid $"###macros###" with
    | Some (P _ (OScope ms)) => match scope_at st ms with Some msc => lookup name (s_vars msc) = None | None => False end
    | _ => False end /\
    match var_at st main_sid name with Some (P _ (OVar v)) => is_fn v f | _ => False end end -> standard st main_sid name.
Proof.
  intros st name H. destruct (builtin_fn name) as [f|] eqn:B; [|contradiction]. destruct H as (H1 & H2 & H3).
  destruct (scope_at st main_sid) as [sc|] eqn:SC; [|contradiction]. destruct H1 as (G & T).
  destruct (var_at st main_sid $"###macros###") as [[|i [| | | | | | | | |ms| |]]|] eqn:M; try contradiction.
  destruct (scope_at st ms) as [msc|] eqn:MS; [|contradiction].
  destruct (var_at st main_sid name) as [[|j [| | | | | | | | | | |v]]|] eqn:V; try contradiction.
  exists f. split; [exact B|]. exists sc, sc, j, v. rewrite G. repeat split; auto; try (destruct H3; assumption).
  - eexists; eassumption.
  - right. exists i, ms. split; [exact M|]. split; [eexists; exact MS|]. unfold var_at. rewrite MS. exact H2.
  - apply se_own; [eexists; exact SC|exact V].
Qed.

Lemma or_not_disjunction : exists v st', runs false false $"(or #f #t)" [] fresh (Val (Some v)) st' /\ is_bool v false.
Proof. eexists. eexists. split; [apply (runs_by 30); [vm_compute; reflexivity|discriminate]|split; reflexivity]. Qed.
Lemma or_not_short : exists v st', runs false false $"(or #t (== 1 (print 1)))" [] fresh (Val (Some v)) st' /\ st_out st' = $"1".
Proof. eexists. eexists. split; [apply (runs_by 30); [vm_compute; reflexivity|discriminate]|vm_compute; reflexivity]. Qed.
Lemma stale_run : exists v st',
  runs false false $"(do (gdef x 1) (defn f () (do (def x 2) (def g (lambda () (do (setf x 3) (+ x 0)))) (g))) (f))" [] fresh (Val (Some v)) st' /\ is_int v 1.
Proof. eexists. eexists. split; [apply (runs_by 60); [vm_compute; reflexivity|discriminate]|split; reflexivity]. Qed.
Lemma return_leak : exists r1 r2 st1 st2, runs false false $"(do (return 5))" [] fresh (Val r1) st1 /\
  runs false false $"(do (print 1) (print 2))" [] st1 (Val r2) st2 /\ st_out st2 = $"1".
Proof.
  eexists. eexists. eexists. eexists. split; [apply (runs_by 60); [vm_compute; reflexivity|discriminate]|].
  split; [apply (runs_by 60); [vm_compute; reflexivity|discriminate]|vm_compute; reflexivity].
Qed.
Lemma evals_by : forall n p s st o, fst (r_eval (run n) p s st) = o -> o <> NoFuel -> evals p s st o (snd (r_eval (run n) p s st)).
Proof. intros n p s st o E N. exists n. rewrite <- E. split; [apply surjective_pairing|congruence]. Qed.
Lemma form_by : forall st i l j name args, vec_at st l = Some (sym_ j name :: args) -> form st (code_ i l) name None args.
Proof. intros st i l j name args E. exists j, (mkv TSym (OString name)). repeat split. left. exists i, l. split; [reflexivity|exact E]. Qed.
Lemma main_here : forall st, match scope_at st main_sid with Some sc => True | None => False end -> scope_exists st main_sid.
Proof. intros st H. destruct (scope_at st main_sid) as [sc|] eqn:E; [exists sc; exact E|contradiction]. Qed.
Lemma main_scope : forall st, match scope_at st main_sid with Some sc => s_global sc = main_sid /\ s_closure sc = None /\ s_prev sc = None /\
    fine_text (s_name sc) /\ fine_text (s_module sc) | None => False end ->
  printable st main_sid /\ (forall name, var_at st main_sid name = None -> unassignable st main_sid name) /\
  (forall name, var_at st main_sid name = None -> match var_at st main_sid $"###modules###" with
     | Some (P _ (OScope ms)) => match scope_at st ms with Some msc => s_vars msc = [] | None => False end | _ => False end -> sees st main_sid name None).
Proof.
  intros st H. destruct (scope_at st main_sid) as [sc|] eqn:E; [|contradiction]. destruct H as (G & C & PV & N & M).
  assert (SE : scope_exists st main_sid) by (exists sc; exact E).
  split; [eapply pr_last; eassumption|]. split.
  - intros name V. exists sc. rewrite G. repeat split; auto. eapply en_none; eassumption.
  - intros name V H. destruct (var_at st main_sid $"###modules###") as [[|i [| | | | | | | | |ms| |]]|] eqn:Q; try contradiction.
    destruct (scope_at st ms) as [msc|] eqn:MS; [|contradiction].
    eapply se_module; [exact E|exact V|rewrite G; exact SE|rewrite G; exact V|eapply en_none; eassumption|rewrite G; exact Q|exact MS|rewrite H; apply im_none].
Qed.
Lemma numbered_code : forall ls st, numbered st -> numbered (with_code ls st).
Proof. intros ls st N s sc E. exact (N s sc E). Qed.

(** Well-formedness, continued: the evaluator. *)
Require Import String Ascii List ZArith Bool Lia.
Require Import PArith FMapPositive.
From Verif Require Import Base CppString Num Token Tokenizer Parser Value State Show ScopeOps Builtins Table Eval LispTop Wf WfRead.
Import ListNotations.

Create HintDb okm.
Notation tt2 := (fun _ _ => True).
Notation okres := (oopt ok_var).

(** What a value of a type is expected to satisfy. *)
Class Okin (A : Type) := okin : state -> A -> Prop.
#[local] Instance okin_ptr {T : Priv} : Okin ptr := ok_ptr.
#[local] Instance okin_obj {T : Priv} : Okin obj := ok_obj.
#[local] Instance okin_var {T : Priv} : Okin variant := ok_var.
#[local] Instance okin_fn {T : Priv} : Okin fnval := ok_fn.
#[local] Instance okin_ptrs {T : Priv} : Okin (list ptr) := fun w => all (ok_ptr w).
#[local] Instance okin_res {T : Priv} : Okin (option variant) := oopt ok_var.
#[local] Instance okin_optr {T : Priv} : Okin (option ptr) := oopt ok_ptr.
#[local] Instance okin_ofn {T : Priv} : Okin (option fnval) := oopt ok_fn.
#[local] Instance okin_pb {T : Priv} : Okin (ptr * bool) := fun w x => ok_ptr w (fst x).
#[local] Instance okin_Z : Okin Z := fun _ z => in_int z = true.
#[local] Instance okin_unit : Okin unit := tt2.
#[local] Instance okin_bool : Okin bool := tt2.
#[local] Instance okin_str : Okin (list ascii) := tt2.
#[local] Instance okin_ostr {T : Priv} : Okin (option (list ascii)) := tt2.
Ltac unokin := cbv beta delta [okin okin_ptr okin_obj okin_var okin_fn okin_ptrs okin_res okin_optr okin_ofn okin_pb
  okin_Z okin_unit okin_bool okin_str okin_ostr] in *.

(** ** Values *)
Lemma okv_nil {T : Priv} : forall w, all (ok_ptr w) [].
Proof. intros; exact I. Qed.
Lemma okv_cons {T : Priv} : forall w p ps, ok_ptr w p -> all (ok_ptr w) ps -> all (ok_ptr w) (p :: ps).
Proof. intros; split; assumption. Qed.
Lemma okv_app {T : Priv} : forall w ps qs, all (ok_ptr w) ps -> all (ok_ptr w) qs -> all (ok_ptr w) (ps ++ qs).
Proof. intros. apply all_app; auto. Qed.
Lemma okv_nulls {T : Priv} : forall w n, all (ok_ptr w) (repeat PNull n).
Proof. induction n; cbn; auto. Qed.
Lemma okv_tl {T : Priv} : forall w ps, all (ok_ptr w) ps -> all (ok_ptr w) (tl ps).
Proof. intros; apply all_tl; auto. Qed.
Lemma okv_firstn {T : Priv} : forall w n ps, all (ok_ptr w) ps -> all (ok_ptr w) (firstn n ps).
Proof. intros; apply all_firstn; auto. Qed.
Lemma okv_skipn {T : Priv} : forall w n ps, all (ok_ptr w) ps -> all (ok_ptr w) (skipn n ps).
Proof. intros; apply all_skipn; auto. Qed.
Lemma okv_rev {T : Priv} : forall w ps, all (ok_ptr w) ps -> all (ok_ptr w) (rev ps).
Proof. intros; apply all_rev; auto. Qed.
Lemma okv_insert {T : Priv} : forall w i x ps, ok_ptr w x -> all (ok_ptr w) ps -> all (ok_ptr w) (insert_at i x ps).
Proof. intros. unfold insert_at. apply okv_app; [apply okv_firstn; auto|]. split; [auto|apply okv_skipn; auto]. Qed.
Lemma okv_remove {T : Priv} : forall w i ps, all (ok_ptr w) ps -> all (ok_ptr w) (remove_at i ps).
Proof. intros. unfold remove_at. apply okv_app; [apply okv_firstn|apply okv_skipn]; auto. Qed.
Lemma okv_replace {T : Priv} : forall w i x ps, ok_ptr w x -> all (ok_ptr w) ps -> all (ok_ptr w) (replace_at i x ps).
Proof. intros. unfold replace_at. apply okv_app; [apply okv_firstn; auto|]. split; [auto|apply okv_skipn; auto]. Qed.
Lemma okv_ovar {T : Priv} : forall w v, ok_var w v -> ok_obj w (OVar v).
Proof. intros; assumption. Qed.
Lemma okv_P {T : Priv} : forall w i o, ok_obj w o -> ok_ptr w (P i o).
Proof. intros; assumption. Qed.
Lemma okv_null {T : Priv} : forall w, ok_ptr w PNull.
Proof. intros; exact I. Qed.
Lemma okv_some : forall A (P : state -> A -> Prop) w v, P w v -> oopt P w (Some v).
Proof. intros; assumption. Qed.
Lemma okv_none : forall A (P : state -> A -> Prop) w, oopt P w None.
Proof. intros; exact I. Qed.
Lemma okv_sym {T : Priv} : forall w t, ok_var w (mkv TSym (OString t)).
Proof. intros; cbn; auto. Qed.
Lemma okv_err {T : Priv} : forall w t, ok_var w (mkv TError (OString t)).
Proof. intros; cbn; auto. Qed.
Lemma okv_lval {T : Priv} : forall w lv, ok_lval w lv -> ok_var w (vlvalue lv).
Proof. intros; cbn; auto. Qed.
Lemma okv_dict {T : Priv} : forall w l, dict_in w l -> ok_var w (mkv TNative (ODict l)).
Proof. intros; cbn; auto. Qed.
Lemma okv_str {T : Priv} : forall w t, ok_obj w (OString t).
Proof. intros; exact I. Qed.
Lemma okv_bool {T : Priv} : forall w t, ok_obj w (OBool t).
Proof. intros; exact I. Qed.
Lemma okv_undef {T : Priv} : forall w, ok_obj w OUndef.
Proof. intros; exact I. Qed.
Lemma okv_dbl {T : Priv} : forall w t, ok_obj w (ODouble t).
Proof. intros; exact I. Qed.
Lemma okv_macro {T : Priv} : forall w b fs bs, all (ok_ptr w) fs -> all (ok_ptr w) bs -> ok_obj w (OMacro b fs bs).
Proof. intros; split; assumption. Qed.
Lemma okv_with_unq {T : Priv} : forall w u v, ok_var w v -> ok_var w (with_unq u v).
Proof. intros w u [t [o|] u' k] H; exact H. Qed.
Lemma okv_list {T : Priv} : forall w o, ok_var w (mkv TList o) -> ok_obj w o.
Proof. intros w o H. apply H. Qed.
Lemma okv_nth {T : Priv} : forall w ps i p, all (ok_ptr w) ps -> nth_error ps i = Some p -> ok_ptr w p.
Proof. intros. eapply all_nth in H0; eauto. Qed.
#[export] Hint Resolve okv_nil okv_cons okv_app okv_nulls okv_tl okv_firstn okv_skipn okv_rev okv_insert okv_remove okv_replace
  okv_ovar okv_P okv_null okv_some okv_none okv_sym okv_err okv_lval okv_dict okv_str okv_bool okv_undef okv_dbl okv_macro okv_with_unq okv_list : oks.

Definition okpb {T : Priv} (w : state) (x : ptr * bool) : Prop := ok_ptr w (fst x).
Ltac osimp :=
  unfold okpb in *;
  cbn [ok_obj ok_ptr ok_code ok_lval oopt fst snd] in *;
  repeat match goal with
  | H : _ /\ _ |- _ => destruct H
  | H : True |- _ => clear H
  | H : all (ok_ptr _) (_ :: _) |- _ => destruct H
  | H : exists _, _ |- _ => destruct H
  | H : nth_error ?ps _ = Some ?p, K : all (ok_ptr ?w) ?ps |- _ =>
    lazymatch goal with
    | _ : ok_ptr w p |- _ => fail
    | _ => pose proof (okv_nth _ _ _ _ K H)
    end
  end.
Lemma okm_reads2 {T : Priv} : forall A w (f : state -> out A) (Q : state -> A -> Prop),
  (forall st, ext w st -> ok st -> exists R, oks (f st) R /\ R = Q st) -> okm w (reads f) Q.
Proof. intros A w f Q H. apply okm_reads. intros st E K. destruct (H st E K) as [R [H1 <-]]. exact H1. Qed.
Lemma okm_lift2 {T : Priv} : forall A w (o : out A) (Q : state -> A -> Prop),
  (forall st, ext w st -> exists R, oks o R /\ R = Q st) -> okm w (lift o) Q.
Proof. intros A w f Q H. apply okm_lift. intros st E. destruct (H st E) as [R [H1 <-]]. exact H1. Qed.
Ltac leaf :=
  match goal with
  | |- okm _ (ret _) _ => apply okm_ret; let E := fresh "E" in intros ? E; up E; unokin; solve [eauto 6 with oks]
  | |- okm _ (some _) _ => unfold some; apply okm_ret; let E := fresh "E" in intros ? E; up E; solve [eauto 6 with oks]
  | |- okm _ (throw _) _ => apply okm_throw
  | |- okm _ (unmod _) _ => apply okm_unmod
  | |- okm _ (undef _) _ => apply okm_undef; ubok
  | |- okm _ (reads _) _ => 
      apply okm_reads2; let E := fresh "E" in let K := fresh "K" in intros ? E K; up E;
      eexists; split; [solve [eauto 5 with oks]|reflexivity]
  | |- okm _ (lift _) _ => 
      apply okm_lift2; let E := fresh "E" in intros ? E; up E;
      eexists; split; [solve [eauto 5 with oks]|reflexivity]
  | |- okm _ (bind _ _) _ => fail 1
  | |- okm _ (match _ with _ => _ end) _ => fail 1
  | |- okm _ _ _ => solve [eauto 6 with okm oks]
  end.
Ltac binder :=
  let w' := fresh "w" in let a := fresh "a" in let E := fresh "E" in let H := fresh "H" in
  intros w' a E H; up E; clear E; unokin; osimp.
Ltac mstep :=
  match goal with
  | |- okm _ (let x := _ in _) _ => cbv zeta
  | |- okm _ (bind _ _) _ => eapply okm_bind; [leaf|binder]
  | |- okm ?w (@bind ?A ?B ?m ?f) ?Q =>
    let q := constr:(okin : state -> A -> Prop) in eapply (okm_bind A B w m f q); [|binder]
  | |- okm _ (match ?x with _ => _ end) _ => destruct x eqn:?; osimp
  | |- okm _ (ret (match ?x with _ => _ end)) _ => destruct x eqn:?; osimp
  | |- okm _ _ okin => unokin
  end.
Ltac mauto := repeat (first [leaf | mstep]).

Lemma okm_new_list_obj {T : Priv} : forall w es, all (ok_ptr w) es -> okm w (new_list_obj es) (fun w o => ok_var w (mkv TList o)).
Proof.
  intros. unfold new_list_obj. eapply okm_bind; [apply okm_alloc_vec; assumption|]. intros w' l E Hl.
  apply okm_ret. intros w2 E2. cbn. split; [exact I|]. apply (ext_vec _ _ E2). exact Hl.
Qed.
#[export] Hint Resolve okm_new_ptr okm_alloc_vec okm_alloc_dict okm_put_vec okm_put_dict okm_write_out okm_write_file okm_read_line
  okm_dump okm_new_list_obj : okm.
Lemma okm_new_list_ptr {T : Priv} : forall w es, all (ok_ptr w) es -> okm w (new_list_ptr es) ok_ptr.
Proof. intros. unfold new_list_ptr. mauto. Qed.
Lemma okm_new_var_ptr {T : Priv} : forall w v, ok_var w v -> okm w (new_var_ptr v) ok_ptr.
Proof. intros. unfold new_var_ptr. mauto. Qed.
#[export] Hint Resolve okm_new_list_ptr okm_new_var_ptr : okm.
Lemma okm_obj_copy {T : Priv} : forall w o, ok_obj w o -> okm w (obj_copy o) ok_obj.
Proof.
  intros w o H. destruct o; cbn [obj_copy]; try (mauto; fail); osimp.
  - mstep. eapply okm_bind.
    + apply okm_alloc_scope. intros s' Y. destruct H0 as [A1 A2 A3 A4 [A5 A6]]. constructor; auto.
      * intros c Ec. destruct (A4 c Ec) as [C1 C2]. split; [exact C1|]. apply Y. apply C1.
      * constructor; auto. intros c Ec. destruct (A5 c Ec). split; auto.
    + intros w2 c E [H1 H2]. apply okm_ret. intros w3 E3. apply (ext_scope _ _ E3). assumption.
Qed.
#[export] Hint Resolve okm_obj_copy : okm.

(** ** Changing scopes *)
Lemma okm_scope_set {T : Priv} : forall w s k p, scope_in w s -> ok_ptr w p -> okm w (scope_set s k p) tt2.
Proof.
  intros. unfold scope_set. apply okm_mod_scope; [assumption|cbn; auto|]. intros w' sc E [A B G C [D2 D3]]. constructor; cbn; auto.
  - apply vars_set_ok; auto. eapply ok_ptr_mono; eauto.
  - apply vars_set_sorted; auto.
  - constructor; auto.
Qed.
#[export] Hint Resolve okm_scope_set : okm.
Lemma okm_scope_index {T : Priv} : forall w s k, scope_in w s -> okm w (scope_index s k) ok_ptr.
Proof.
  intros. unfold scope_index. mstep. destruct (vars_find k (s_vars a)) eqn:F.
  - pose proof (vars_find_ok w0 k (s_vars a) (os_vars _ _ _ H0)) as V. rewrite F in V. cbn in V. mauto.
  - mauto.
Qed.
(** Setters that leave variables and links alone. *)
Lemma okm_mod_plain {T : Priv} : forall w s f, scope_in w s ->
  (forall sc, s_vars (f sc) = s_vars sc /\ s_global (f sc) = s_global sc /\ s_closure (f sc) = s_closure sc /\
              s_prev (f sc) = s_prev sc /\ s_next (f sc) = s_next sc) ->
  okm w (mod_scope s f) tt2.
Proof.
  intros w s f Hs Hf. apply okm_mod_scope; [assumption|intro sc; repeat split; apply Hf|]. intros w' sc E K. destruct (Hf sc) as [F1 [F2 [F3 [F4 F5]]]].
  destruct K as [A B G C [D2 D3]]. constructor; rewrite ?F1, ?F2, ?F3, ?F4, ?F5; auto.
  constructor; rewrite ?F1, ?F2, ?F3, ?F4, ?F5; auto.
Qed.
Ltac plain := intros; apply okm_mod_plain; [assumption|]; intro sc; cbn; tauto.
Lemma okm_set_module {T : Priv} : forall w s v, scope_in w s -> okm w (mod_scope s (set_module v)) tt2. Proof. plain. Qed.
Lemma okm_set_needlv {T : Priv} : forall w s v, scope_in w s -> okm w (mod_scope s (set_needlv v)) tt2. Proof. plain. Qed.
Lemma okm_set_inret {T : Priv} : forall w s v, scope_in w s -> okm w (mod_scope s (set_inret v)) tt2. Proof. plain. Qed.
Lemma okm_set_ineval {T : Priv} : forall w s v, scope_in w s -> okm w (mod_scope s (set_ineval v)) tt2. Proof. plain. Qed.
Lemma okm_set_tracing {T : Priv} : forall w s v, scope_in w s -> okm w (mod_scope s (set_tracing v)) tt2. Proof. plain. Qed.
Lemma okm_set_token {T : Priv} : forall w s v, scope_in w s -> okm w (mod_scope s (set_token v)) tt2. Proof. plain. Qed.
Lemma okm_set_userdata {T : Priv} : forall w s v, scope_in w s -> okm w (mod_scope s (set_userdata v)) tt2. Proof. plain. Qed.
Lemma okm_set_userdoc {T : Priv} : forall w s v, scope_in w s -> okm w (mod_scope s (set_userdoc v)) tt2. Proof. plain. Qed.
Lemma okm_set_tokens {T : Priv} : forall w s v, scope_in w s -> okm w (mod_scope s (set_tokens v)) tt2. Proof. plain. Qed.
#[export] Hint Resolve okm_scope_index okm_set_module okm_set_needlv okm_set_inret okm_set_ineval okm_set_tracing okm_set_token
  okm_set_userdata okm_set_userdoc okm_set_tokens : okm.
Lemma okm_set_closure {T : Priv} : forall w s c, scope_in w s -> scope_in w c -> (c < s)%positive ->
  okm w (mod_scope s (set_closure (Some c))) tt2.
Proof.
  intros w s c Hs Hc L. apply okm_mod_scope; [assumption|cbn; auto|]. intros w' sc E [A B G C [D2 D3]]. constructor; cbn; auto.
  - intros x [= <-]. split; [apply (ext_scope _ _ E); assumption|assumption].
  - constructor; cbn; auto.
Qed.
Lemma okm_new_scope {T : Priv} : forall w n g m, scope_in w g ->
  okm w (new_scope n g m) (fun w' c => scope_in w' c /\ forall x, scope_any w x -> (x < c)%positive).
Proof.
  intros w n g m Hg. unfold new_scope. eapply okm_bind.
  - apply okm_reads. intros st E K. apply oks_get_scope; [assumption|]. apply (ext_scope _ _ E); assumption.
  - intros w' sc E Hsc. eapply okm_weak.
    + apply okm_alloc_scope. intros s Y. constructor; cbn; try discriminate; auto; [apply (ext_scope _ _ E); assumption|constructor; cbn; discriminate].
    + intros w2 c E2 [H1 H2]. split; [exact H1|]. intros x Hx. apply H2. apply (ext_any _ _ E); assumption.
Qed.
(** The links to the next and the previous scope, also of scopes set aside. *)
Lemma okm_mod_links {T : Priv} : forall w s f, scope_any w s ->
  (forall sc, s_vars (f sc) = s_vars sc /\ s_closure (f sc) = s_closure sc /\ s_global (f sc) = s_global sc) ->
  (forall w' sc, ext w w' -> ok_links w' s sc -> ok_links w' s (f sc)) -> okm w (mod_scope s f) tt2.
Proof.
  intros w s f Hs Hf Hl. apply okm_mod_any; [assumption|intro sc; apply Hf|intros _ sc; apply Hf|exact Hl|].
  intros w' sc E _ [A B G C D]. destruct (Hf sc) as [F1 [F2 F3]]. constructor; rewrite ?F1, ?F2, ?F3; auto.
Qed.
Lemma okm_push_next {T : Priv} : forall w s c, scope_any w s -> scope_in w c -> (s < c)%positive -> okm w (push_next s c) tt2.
Proof.
  intros w s c Hs [Hc Nc] L. unfold push_next. eapply okm_bind.
  - apply okm_mod_links; [assumption|cbn; auto|]. intros w' sc E []. constructor; cbn; auto. intros x [= <-]. apply (ext_any _ _ E); assumption.
  - intros w' _ E _. apply okm_mod_links; [apply (ext_any _ _ E); assumption|cbn; auto|]. intros w2 sc E2 []. constructor; cbn; auto.
    intros x [= <-]. split; [apply (ext_any _ _ E2); apply (ext_any _ _ E); assumption|assumption].
Qed.
Lemma okm_pop_next {T : Priv} : forall w s, scope_any w s -> okm w (pop_next s) tt2.
Proof.
  intros w s Hs. unfold pop_next. eapply okm_bind.
  { apply okm_reads with (Q := fun w => ok_links w s). intros st E K. apply oks_get_links; [assumption|]. apply (ext_any _ _ E); assumption. }
  intros w1 a E1 H. cbv beta in H. apply (ext_any _ _ E1) in Hs. destruct (s_next a) as [c|] eqn:En; [|mauto].
  pose proof (ol_next _ _ _ H c En) as Hc. eapply okm_bind.
  - apply okm_mod_links; [assumption|cbn; auto|]. intros w' sc E []. constructor; cbn; auto. discriminate.
  - intros w' _ E _. apply okm_mod_links; [apply (ext_any _ _ E); assumption|cbn; auto|]. intros w2 sc E2 []. constructor; cbn; auto. discriminate.
Qed.
#[export] Hint Resolve okm_push_next okm_pop_next okm_set_closure : okm.
Lemma osg {T : Priv} : forall w s sc, ok_scope w s sc -> scope_in w (s_global sc).
Proof. intros w s sc [A B G C D]. assumption. Qed.
Lemma osv {T : Priv} : forall w s sc, ok_scope w s sc -> vars_ok w (s_vars sc).
Proof. intros w s sc [A B G C D]. assumption. Qed.
#[export] Hint Resolve osg osv in_any : oks.
#[export] Hint Resolve in_any : okm.

(** ** ScopeOps.v *)
Lemma okm_find_in_modules {T : Priv} : forall w n g, scope_in w g -> okm w (find_in_modules n g) (oopt ok_ptr).
Proof. intros. unfold find_in_modules. mauto. Qed.
#[export] Hint Resolve okm_find_in_modules : okm.
Lemma okm_resolve {T : Priv} : forall w s p, scope_in w s -> ok_ptr w p -> okm w (resolve s p) ok_ptr.
Proof. intros. unfold resolve. mauto. Qed.
Lemma okm_throw_scope {T : Priv} : forall A w m s Q, scope_in w s -> @okm _ A w (throw_scope m s) Q.
Proof. intros. unfold throw_scope. mauto. Qed.
Lemma okm_throw_token {T : Priv} : forall A w m t s Q, scope_in w s -> @okm _ A w (throw_token m t s) Q.
Proof. intros. unfold throw_token. mauto. Qed.
#[export] Hint Resolve okm_resolve okm_throw_scope okm_throw_token : okm.
Lemma okm_set_in_scopes {T : Priv} : forall w s n p, scope_in w s -> ok_ptr w p -> okm w (set_in_scopes s n p) tt2.
Proof. intros. unfold set_in_scopes. mauto. Qed.
Lemma okm_check_args {T : Priv} : forall w n c a s, scope_in w s -> okm w (check_args n c a s) tt2.
Proof. intros. unfold check_args. mauto. Qed.
Lemma okm_check_opt_args {T : Priv} : forall w n c d a s, scope_in w s -> okm w (check_opt_args n c d a s) tt2.
Proof. intros. unfold check_opt_args. mauto. Qed.
Lemma okm_arg {T : Priv} : forall w i a, all (ok_ptr w) a -> okm w (arg i a) ok_ptr.
Proof. intros. unfold arg. mauto. Qed.
Lemma okm_some_var {T : Priv} : forall w r, oopt ok_var w r -> okm w (some_var r) ok_var.
Proof. intros. unfold some_var. mauto. Qed.
Lemma okm_write_line {T : Priv} : forall w t, okm w (write_line t) tt2.
Proof. intros. unfold write_line. mauto. Qed.
#[export] Hint Resolve okm_set_in_scopes okm_check_args okm_check_opt_args okm_arg okm_some_var okm_write_line : okm.
Lemma okm_write_fmt {T : Priv} : forall w f a, okm w (write_fmt f a) tt2.
Proof. intros. unfold write_fmt. mauto. Qed.
Lemma okm_check_for_function {T : Priv} : forall w n p s, ok_ptr w p -> scope_in w s -> okm w (check_for_function n p s) ok_fn.
Proof. intros. unfold check_for_function. mauto. Qed.
Lemma okm_check_for_list {T : Priv} : forall w n p s, ok_ptr w p -> scope_in w s -> okm w (check_for_list n p s) (fun w => all (ok_ptr w)).
Proof.
  intros w n p s Hp Hs. unfold check_for_list. mstep.
  assert (G : okm w0
    (let v := vref_obj a in
     if is_ty TNative v && match v_val v with None => true | _ => false end then undef UBTag
     else if is_list v then reads (list_value v)
     else
       let! t := reads (previous_token s (v_tok (var_of_obj a))) in
       throw_token ($"No list in " ++ n) t s) (fun w => all (ok_ptr w))).
  { cbv zeta. apply (vref_obj_ok w0) in H. destruct (is_ty TNative (vref_obj a)) eqn:N.
    - destruct (tag_val _ _ _ H N) as [o [Eo _]]; try discriminate. rewrite Eo. cbn [andb]. mauto.
    - cbn [andb]. mauto. }
  destruct a; try exact G. mauto.
Qed.
Lemma okm_string_repr {T : Priv} : forall w a s, all (ok_ptr w) a -> scope_in w s -> okm w (string_repr a s) tt2.
Proof. intros. unfold string_repr. mauto. Qed.
#[export] Hint Resolve okm_write_fmt okm_check_for_function okm_check_for_list okm_string_repr : okm.

(** ** Builtins.v *)
Lemma okm_argv {T : Priv} : forall w i a, all (ok_ptr w) a -> okm w (argv i a) ok_var.
Proof. intros. unfold argv. mauto. Qed.
Lemma okm_argc {T : Priv} : forall w i a, all (ok_ptr w) a -> okm w (argc i a) ok_var.
Proof. intros. unfold argc. mauto. Qed.
Lemma okm_args_str {T : Priv} : forall w i a, all (ok_ptr w) a -> okm w (args_str i a) tt2.
Proof. intros. unfold args_str. mauto. Qed.
#[export] Hint Resolve okm_argv okm_argc okm_args_str : okm.
Lemma okm_wrap0 {T : Priv} : forall w n f a s, scope_in w s -> (forall w', ext w w' -> okm w' f ok_var) -> okm w (wrap0 n f a s) okres.
Proof.
  intros. unfold wrap0. eapply okm_bind; [leaf|]. intros w' x E _. eapply okm_bind; [apply H0; exact E|].
  binder. mauto.
Qed.
Lemma okm_wrap1 {T : Priv} : forall w n f a s, scope_in w s -> all (ok_ptr w) a ->
  (forall w' v, ext w w' -> ok_var w' v -> okm w' (f v) ok_var) -> okm w (wrap1 n f a s) okres.
Proof.
  intros w n f a s Hs Ha Hf. unfold wrap1. eapply okm_bind; [leaf|]. intros w' x E _. up E. eapply okm_bind; [leaf|].
  intros w2 v E2 Hv. up E2. eapply okm_bind; [apply Hf; [eapply ext_trans; eauto|assumption]|].
  binder. mauto.
Qed.
Lemma okm_wrap2 {T : Priv} : forall w n f a s, scope_in w s -> all (ok_ptr w) a ->
  (forall w' v v2, ext w w' -> ok_var w' v -> ok_var w' v2 -> okm w' (f v v2) ok_var) -> okm w (wrap2 n f a s) okres.
Proof.
  intros w n f a s Hs Ha Hf. unfold wrap2. eapply okm_bind; [leaf|]. intros w' x E _. up E. eapply okm_bind; [leaf|].
  intros w2 v E2 Hv. up E2. eapply okm_bind; [leaf|].
  intros w3 v2 E3 Hv2. up E3. eapply okm_bind; [apply Hf; [|assumption|assumption]|binder; mauto].
  eapply ext_trans; [exact E|eapply ext_trans; eauto].
Qed.
Ltac w0 := apply okm_wrap0; [assumption|]; let E := fresh in intros ? E; up E; clear E.
Ltac w1 := apply okm_wrap1; [assumption..|]; let E := fresh in intros ? ? E ?; up E; clear E.
Ltac w2 := apply okm_wrap2; [assumption..|]; let E := fresh in intros ? ? ? E ? ?; up E; clear E.
Lemma vars_head {T : Priv} : forall w kv vs, vars_ok w (kv :: vs) -> ok_ptr w (snd kv) /\ vars_ok w vs.
Proof. intros w kv vs H. exact H. Qed.
Lemma okm_doc_items {T : Priv} : forall sel items w s, all (ok_ptr w) items -> scope_in w s -> okm w (doc_items sel items s) tt2.
Proof. induction items; intros; cbn [doc_items]; osimp; mauto. Qed.
#[export] Hint Resolve okm_doc_items : okm.
Ltac dumpt := eapply okm_dump; let E := fresh in let K := fresh in intros ? E K; up E; clear E; pauto.
Lemma okm_search_documentation {T : Priv} : forall sel w a s, all (ok_ptr w) a -> scope_in w s -> okm w (search_documentation sel a s) okres.
Proof. intros. unfold search_documentation. mauto; dumpt. Qed.
#[export] Hint Resolve okm_search_documentation : okm.
Lemma okm_dump_vars {T : Priv} : forall vs w, vars_ok w vs -> okm w (dump_vars vs) tt2.
Proof.
  induction vs as [|[k p] vs IH]; intros w H; cbn [dump_vars]; [mauto|]. apply vars_head in H. osimp. mauto.
Qed.
#[export] Hint Resolve okm_dump_vars : okm.
Definition okop {T : Priv} (op : variant -> variant -> M variant) : Prop :=
  forall w a b, ok_var w a -> ok_var w b -> okm w (op a b) ok_var.
Lemma okm_arith_loop {T : Priv} : forall op, okop op -> forall args w acc,
  all (ok_ptr w) args -> ok_var w acc -> okm w (arith_loop op args acc) okres.
Proof.
  intros op H. unfold okop in H. induction args; intros w acc Ha Hc; cbn [arith_loop]; [mauto|]. osimp. mstep.
  eapply okm_bind; [apply H; assumption|]. binder. auto.
Qed.
Lemma okm_arith_operation {T : Priv} : forall op, okop op -> forall args w, all (ok_ptr w) args -> okm w (arith_operation op args) okres.
Proof.
  intros op H args w Ha. unfold arith_operation. destruct args; [mauto|]. osimp. mstep. apply okm_arith_loop; assumption.
Qed.
Lemma okm_v_add {T : Priv} : okop v_add.
Proof.
  intros w a b Ha Hb. unfold v_add. mauto. apply okm_reads. intros st E K. up E. apply oks_arith; auto with oks.
Qed.
Lemma okm_list_result {T : Priv} : forall es w, all (ok_ptr w) es -> okm w (list_result es) okres.
Proof. intros. unfold list_result. mauto. Qed.
Lemma okm_elem_at {T : Priv} : forall es i w, all (ok_ptr w) es -> okm w (elem_at es i) okres.
Proof. intros. unfold elem_at. mauto. Qed.
Lemma okm_args_list {T : Priv} : forall w s, scope_in w s -> okm w (args_list s) (fun w => all (ok_ptr w)).
Proof. intros. unfold args_list. mauto. Qed.
Lemma okm_ret_loc {T : Priv} : forall w l, dict_in w l -> okm w (ret l) dict_in.
Proof. intros w l H. apply okm_ret. intros w' E. apply (ext_dict _ _ E). exact H. Qed.
Lemma vval_ok {T : Priv} : forall w v o, ok_var w v -> v_val v = Some o -> ok_obj w o.
Proof. intros w [t [x|] u k] o H; cbn; intros [= <-]; apply H. Qed.
Lemma okm_dict_arg {T : Priv} : forall w a, all (ok_ptr w) a -> okm w (dict_arg a) dict_in.
Proof.
  intros. unfold dict_arg. mstep. destruct (v_val a0) as [o|] eqn:Ev; [|mauto].
  apply (vval_ok w0) in Ev; [|assumption]. destruct o; leaf.
Qed.
Lemma okm_new_var_ptrs {T : Priv} : forall vs w, all (ok_var w) vs -> okm w (new_var_ptrs vs) (fun w => all (ok_ptr w)).
Proof.
  induction vs as [|v vs IH]; intros w H; cbn [new_var_ptrs]; [mauto|]. destruct H as [H1 H2].
  eapply okm_bind; [leaf|]. intros w' p E Hp. eapply okm_bind.
  - apply IH. eapply all_impl; [|exact H2]. apply ok_var_mono. exact E.
  - binder. mauto.
Qed.
#[export] Hint Resolve okm_list_result okm_elem_at okm_args_list okm_dict_arg okm_new_var_ptrs : okm.
Lemma okm_int_op {T : Priv} : forall f, (forall a b, in_int a = true -> in_int b = true -> oks (f a b) (fun z => in_int z = true)) ->
  okop (int_op f).
Proof.
  intros f H w a b Ha Hb. unfold int_op. mstep. mstep. eapply okm_bind.
  - apply okm_lift. intros st E. apply H; assumption.
  - binder. mauto.
Qed.
Lemma okm_cmp_fun {T : Priv} : forall n f w a s, (forall st v v2, ok st -> ok_var st v -> ok_var st v2 -> oks (f v v2 st) (fun _ => True)) ->
  all (ok_ptr w) a -> scope_in w s -> okm w (cmp_fun n f a s) okres.
Proof.
  intros. unfold cmp_fun. w2. eapply okm_bind; [|binder; mauto]. apply okm_reads. intros st E K. up E. apply H; assumption.
Qed.
Lemma okm_b_strfun {T : Priv} : forall n f w a s, (forall t, oks (f t) (fun _ => True)) ->
  all (ok_ptr w) a -> scope_in w s -> okm w (b_strfun n f a s) okres.
Proof.
  intros. unfold b_strfun. w1. mstep. eapply okm_bind; [|binder; mauto]. apply okm_lift. intros st E. apply H.
Qed.
Lemma okm_math1 {T : Priv} : forall n f w a s, (forall t, oks (f t) (fun _ => True)) ->
  all (ok_ptr w) a -> scope_in w s -> okm w (math1 n f a s) okres.
Proof.
  intros. unfold math1. mstep. mstep. mstep. eapply okm_bind; [|binder; mauto]. apply okm_lift. intros st E. apply H.
Qed.
Lemma okm_catch_all {T : Priv} : forall w m, okm w m okres -> okm w (catch_all m) okres.
Proof.
  intros w m H. unfold catch_all. eapply okm_try; [exact H|]. intros w' e k E [= <-]. mauto.
Qed.
Lemma okm_b_parseint {T : Priv} : forall w a s, all (ok_ptr w) a -> scope_in w s -> okm w (b_parseint a s) okres.
Proof. intros. unfold b_parseint. mstep. apply okm_catch_all. mauto. Qed.
Lemma okm_b_parsefloat {T : Priv} : forall w a s, all (ok_ptr w) a -> scope_in w s -> okm w (b_parsefloat a s) okres.
Proof. intros. unfold b_parsefloat. mstep. apply okm_catch_all. mauto. Qed.
#[export] Hint Resolve okm_b_parseint okm_b_parsefloat : okm.

(** ** Eval.v *)
Definition ok_event {T : Priv} (w : state) (e : dbgev) : Prop :=
  match e with
  | EvVisit h s => ok_ptr w h /\ scope_in w s
  | EvBreak s => scope_in w s
  | EvError _ b s => ok_ptr w b /\ scope_in w s
  end.
Record ok_recs {T : Priv} (R : recs) : Prop := {
  or_eval : forall w p s, ok_ptr w p -> scope_in w s -> okm w (r_eval R p s) okres;
  or_call : forall w f a s, ok_fn w f -> all (ok_ptr w) a -> scope_in w s -> okm w (r_call R f a s) okres;
  or_expand : forall w p s, ok_ptr w p -> scope_in w s -> okm w (r_expand R p s) ok_ptr;
  or_expand1 : forall w p s, ok_ptr w p -> scope_in w s -> okm w (r_expand1 R p s) okpb;
  or_replace : forall w v p e b, ok_var w v -> ok_ptr w p -> all (ok_ptr w) e ->
    okm w (r_replace R v p e b) (fun w => all (ok_ptr w));
  or_quasi : forall w e s, all (ok_ptr w) e -> scope_in w s -> okm w (r_quasi R e s) okpb;
  or_while : forall w c b s r, ok_ptr w c -> ok_ptr w b -> scope_in w s -> oopt ok_var w r ->
    okm w (r_while R c b s r) okres;
  or_script : forall w c s m, scope_in w s -> okm w (r_script R c s m) okres;
  or_dbg : forall w e, ok_event w e -> okm w (r_dbg R e) tt2 }.

Lemma oks_read_file : forall n st, oks (read_file n st) tt_.
Proof. intros; exact I. Qed.
Lemma oks_file_exists : forall n st, oks (file_exists n st) tt_.
Proof. intros; exact I. Qed.
#[export] Hint Resolve oks_read_file oks_file_exists : oks.
Section Step.
Context {T : Priv}.
Variable R : recs.
Hypothesis HR : ok_recs R.
Local Hint Resolve or_eval or_call or_expand or_expand1 or_replace or_quasi or_while or_script : okm.
Lemma okm_visit : forall w h s, ok_ptr w h -> scope_in w s -> okm w (r_dbg R (EvVisit h s)) tt2.
Proof. intros. apply (or_dbg _ HR). split; assumption. Qed.
Lemma okm_break : forall w s, scope_in w s -> okm w (r_dbg R (EvBreak s)) tt2.
Proof. intros. apply (or_dbg _ HR). assumption. Qed.
Lemma okm_error : forall w m b s, ok_ptr w b -> scope_in w s -> okm w (r_dbg R (EvError m b s)) tt2.
Proof. intros. apply (or_dbg _ HR). split; assumption. Qed.
Local Hint Resolve okm_visit okm_break okm_error : okm.
Lemma okpb_pair : forall w p b, ok_ptr w p -> okpb w (p, b).
Proof. intros; assumption. Qed.
Lemma okpb_fst : forall w x, okpb w x -> ok_ptr w (fst x).
Proof. intros; assumption. Qed.
Hint Resolve okpb_pair okpb_fst : oks.

Lemma okm_global_of : forall w s, scope_in w s -> okm w (global_of s) scope_in.
Proof. intros. unfold global_of. mauto. Qed.
Definition caller_ok (w : state) (s : sid) : Prop := exists sc, PositiveMap.find s (st_scopes w) = Some sc /\ scope_in w (s_global sc).
Lemma caller_mono : forall w w', ext w w' -> forall s, caller_ok w s -> caller_ok w' s.
Proof.
  intros w w' E s (sc & F & G). destruct (ext_global _ _ E s sc F) as (x & F1 & G1 & _). exists x. split; [exact F1|].
  rewrite G1. apply (ext_scope _ _ E). exact G.
Qed.
Lemma okm_global_any : forall w s, caller_ok w s -> okm w (global_of s) scope_in.
Proof.
  intros w s H. unfold global_of. eapply okm_bind.
  - apply okm_reads with (Q := fun w sc => scope_in w (s_global sc)). intros st E K.
    destruct (caller_mono _ _ E s H) as (sc & F & G). unfold get_scope. rewrite F. exact G.
  - intros w1 sc E1 L. apply okm_ret. intros w2 E2. apply (ext_scope _ _ E2). exact L.
Qed.
Lemma caller_any : forall w s, caller_ok w s -> scope_any w s.
Proof. intros w s (sc & F & _). unfold scope_any. congruence. Qed.
Lemma okm_caller : forall w A s (m : M A) Q, scope_in w s -> (forall st, ext w st -> caller_ok st s -> okm st m Q) -> okm w m Q.
Proof.
  intros w A s m Q H H2 st E K. assert (C : caller_ok st s).
  { pose proof (ext_scope _ _ E _ H) as [Hs N]. unfold scope_any in Hs. destruct (PositiveMap.find s (st_scopes st)) as [sc|] eqn:F; [|congruence].
    exists sc. split; [exact F|]. apply K in F. apply F. exact N. }
  destruct (H2 st E C st (ext_refl _) K) as (E1 & K1 & R1). auto.
Qed.
Lemma okm_resolve_elem : forall w p s, ok_ptr w p -> scope_in w s -> okm w (resolve_elem p s) ok_ptr.
Proof. intros. unfold resolve_elem. mauto. Qed.
Hint Resolve okm_global_of okm_resolve_elem : okm.
Lemma okm_resolve_elems : forall ps w s, all (ok_ptr w) ps -> scope_in w s ->
  okm w (resolve_elems ps s) (fun w => all (ok_ptr w)).
Proof. induction ps; intros; cbn [resolve_elems]; osimp; mauto. Qed.
Lemma okm_head_function : forall w q s, ok_ptr w q -> scope_in w s -> okm w (head_function q s) ok_fn.
Proof.
  intros. unfold head_function. mstep. apply okm_try; [leaf|]. intros w' e k E. up E. destruct (is_lisp_exn e); [|discriminate].
  intros [= <-]. mauto.
Qed.
Hint Resolve okm_resolve_elems okm_head_function : okm.
Lemma okm_eval_args : forall sp ps w s, all (ok_ptr w) ps -> scope_in w s ->
  okm w (eval_args R sp ps s) (fun w => all (ok_ptr w)).
Proof. induction ps; intros; cbn [eval_args]; osimp; mauto. Qed.
Hint Resolve okm_eval_args : okm.
Lemma okm_replace_formals : forall fs w ac b s, all (ok_ptr w) fs -> all (ok_ptr w) ac -> all (ok_ptr w) b -> scope_in w s ->
  okm w (replace_formals R fs ac b s) (fun w => all (ok_ptr w)).
Proof. induction fs; intros; cbn [replace_formals]; osimp; mauto. Qed.
Hint Resolve okm_replace_formals : okm.
Lemma okm_replace_formal_arguments : forall w fs ac b s, all (ok_ptr w) fs -> all (ok_ptr w) ac -> all (ok_ptr w) b -> scope_in w s ->
  okm w (replace_formal_arguments R fs ac b s) (fun w => all (ok_ptr w)).
Proof. intros. unfold replace_formal_arguments. mauto. Qed.
Lemma okm_replace_symbol : forall e w sy v m, ok_var w sy -> ok_ptr w v -> all (ok_ptr w) e ->
  okm w (replace_symbol R sy v e m) (fun w => all (ok_ptr w)).
Proof. induction e; intros; cbn [replace_symbol]; osimp; mauto. Qed.
Hint Resolve okm_replace_formal_arguments okm_replace_symbol : okm.
Lemma okm_eval_list : forall w h t s, ok_ptr w h -> all (ok_ptr w) t -> scope_in w s -> okm w (eval_list R h t s) okres.
Proof. intros. unfold eval_list. mauto. Qed.
Hint Resolve okm_eval_list : okm.
Lemma okm_eval_ast : forall w p s, ok_ptr w p -> scope_in w s -> okm w (eval_ast R p s) okres.
Proof. intros. unfold eval_ast. mauto. Qed.
Lemma okm_expand_loop : forall w p s, ok_ptr w p -> scope_in w s -> okm w (expand_loop R p s) ok_ptr.
Proof. intros. unfold expand_loop. mauto. Qed.
Lemma okm_convert_list : forall w p, ok_ptr w p -> okm w (convert_list p) ok_ptr.
Proof. intros. unfold convert_list. mauto. Qed.
Hint Resolve okm_convert_list : okm.
Lemma okm_expand_elems : forall ps w s, all (ok_ptr w) ps -> scope_in w s -> okm w (expand_elems R ps s) (fun w => all (ok_ptr w)).
Proof. induction ps; intros; cbn [expand_elems]; osimp; mauto. Qed.
Hint Resolve okm_expand_elems : okm.
Lemma okm_expand_once : forall w p s, ok_ptr w p -> scope_in w s -> okm w (expand_once R p s) okpb.
Proof. intros. unfold expand_once. mauto. Qed.
Lemma okm_eval_arg_if_needed : forall w p s, ok_ptr w p -> scope_in w s -> okm w (eval_arg_if_needed R p s) okres.
Proof. intros. unfold eval_arg_if_needed. mauto. Qed.
Hint Resolve okm_eval_arg_if_needed : okm.
Lemma okm_def_helper : forall w n t a s, scope_in w t -> all (ok_ptr w) a -> scope_in w s -> okm w (def_helper R n t a s) okres.
Proof. intros. unfold def_helper. mauto. Qed.
Hint Resolve okm_def_helper : okm.

Lemma okm_copy_ptr : forall w p, ok_ptr w p -> okm w (copy_ptr p) ok_ptr.
Proof. intros. unfold copy_ptr. mauto. Qed.
Hint Resolve okm_copy_ptr : okm.
Lemma okm_map_loop : forall es w f s, ok_fn w f -> all (ok_ptr w) es -> scope_in w s ->
  okm w (map_loop R f es s) (fun w => all (ok_ptr w)).
Proof. induction es; intros; cbn [map_loop]; osimp; mauto. Qed.
Lemma okm_reduce_loop : forall es w f acc s, ok_fn w f -> all (ok_ptr w) es -> ok_var w acc -> scope_in w s ->
  okm w (reduce_loop R f es acc s) ok_var.
Proof. induction es; intros; cbn [reduce_loop]; osimp; mauto. Qed.
Lemma okm_bool_loop : forall op args w s acc, all (ok_ptr w) args -> scope_in w s -> okm w (bool_loop R op args s acc) tt2.
Proof. induction args; intros; cbn [bool_loop]; osimp; mauto. Qed.
Lemma okm_run_setter : forall w lv p, ok_lval w lv -> ok_ptr w p -> okm w (run_setter lv p) tt2.
Proof. intros w lv p H0 H1. unfold run_setter. destruct lv; cbn [ok_lval] in H0; mauto. Qed.
Hint Resolve okm_map_loop okm_reduce_loop okm_bool_loop okm_run_setter : okm.
Lemma okm_quasi_items : forall es w s, all (ok_ptr w) es -> scope_in w s -> okm w (quasi_items R es s) (fun w => all (ok_ptr w)).
Proof. induction es; intros; cbn [quasi_items]; osimp; mauto. Qed.
Hint Resolve okm_quasi_items : okm.
Lemma okm_quasi : forall w es s, all (ok_ptr w) es -> scope_in w s -> okm w (quasi R es s) okpb.
Proof. intros. unfold quasi. mauto. Qed.
Lemma okm_while_loop : forall w c b s r, ok_ptr w c -> ok_ptr w b -> scope_in w s -> oopt ok_var w r ->
  okm w (while_loop R c b s r) okres.
Proof. intros. unfold while_loop. mauto. Qed.
Lemma okm_do_loop : forall a w s r, all (ok_ptr w) a -> scope_in w s -> oopt ok_var w r -> okm w (do_loop R a s r) okres.
Proof. induction a; intros; cbn [do_loop]; osimp; mauto. Qed.
Lemma okm_nil_ptrs : forall n w, okm w (nil_ptrs n) (fun w => all (ok_ptr w)).
Proof. induction n; intros; cbn [nil_ptrs]; mauto. Qed.
Lemma okm_bind_formals : forall f w a c, all (ok_ptr w) f -> all (ok_ptr w) a -> scope_in w c -> okm w (bind_formals f a c) tt2.
Proof. induction f; intros; cbn [bind_formals]; osimp; mauto. Qed.
Hint Resolve okm_do_loop okm_nil_ptrs okm_bind_formals : okm.
Ltac newscope :=
  eapply okm_bind; [apply okm_new_scope; assumption|];
  let E := fresh "E" in let H := fresh "Hc" in let L := fresh "L" in
  intros ? ? E [H L].
Lemma okm_import_one : forall w p s r, ok_ptr w p -> scope_in w s -> oopt ok_var w r -> okm w (import_one R p s r) okres.
Proof.
  intros w p s r H H0 H1. unfold import_one. mstep. mstep. cbv zeta.
  eapply okm_bind; [apply okm_reads with (Q := fun _ _ => True); intros; exact I|binder].
  eapply okm_bind; [leaf|binder]. destruct a2 as [name found]. mstep; [mauto|].
  destruct a2 as [|x code]; [mauto|]. mstep.
  newscope. pose proof (L s ltac:(apply in_any; assumption)) as Ls. up E. clear E L. mauto.
Qed.
Hint Resolve okm_import_one : okm.
Lemma okm_import_loop : forall ps w s r, all (ok_ptr w) ps -> scope_in w s -> oopt ok_var w r -> okm w (import_loop R ps s r) okres.
Proof. induction ps; intros; cbn [import_loop]; osimp; mauto. Qed.
Hint Resolve okm_import_loop : okm.
Lemma okm_call_closure : forall w n m fa ds a ls, all (ok_ptr w) fa -> scope_in w ds -> all (ok_ptr w) a -> caller_ok w ls ->
  okm w (call_closure R n m fa ds a ls) okres.
Proof.
  intros w n m fa ds a ls Hf Hd Ha Hl. unfold call_closure. pose proof (caller_any _ _ Hl) as Hl'.
  eapply okm_bind; [apply okm_global_any; eassumption|]. clear Hl. intros w1 g E1 Hg. up E1. newscope.
  pose proof (L ls ltac:(assumption)) as Ls. pose proof (L ds ltac:(apply in_any; assumption)) as Ld. up E. clear E L.
  mauto. apply okm_try; [leaf|]. intros wx e k E. up E. destruct e; intros [= <-]; mauto.
Qed.
Lemma okm_update_doc : forall w a s, all (ok_ptr w) a -> scope_in w s -> okm w (update_doc a s) tt2.
Proof. intros. unfold update_doc. mauto. Qed.
Lemma okm_global_function : forall w g n, scope_in w g -> okm w (global_function g n) ok_fn.
Proof. intros. unfold global_function. mauto. Qed.
Hint Resolve okm_call_closure okm_update_doc okm_global_function : okm.
Lemma okm_defn_helper : forall w n a s, all (ok_ptr w) a -> scope_in w s -> okm w (defn_helper R n a s) okres.
Proof. intros. unfold defn_helper. mauto. Qed.
Hint Resolve okm_defn_helper : okm.
Definition okb (f : list ptr -> sid -> M result) : Prop :=
  forall w a s, all (ok_ptr w) a -> scope_in w s -> okm w (f a s) okres.
Ltac ob := intros w a s Ha Hs.
Lemma ofpos_in : forall o : option nat, in_int (match o with Some n => wrap32 (Z.of_nat n) | None => -1 end) = true.
Proof. intros [n|]; [apply wrap32_in|reflexivity]. Qed.
Hint Resolve ofpos_in wrap32_in lnot_in : oks.
Lemma okb_htmldoc : okb b_htmldoc.
Proof. ob. unfold b_htmldoc. cbv zeta. mstep. mstep. dumpt. Qed.
Lemma okb_delvar : okb b_delvar.
Proof.
  ob. unfold b_delvar. w1. mstep. mstep. eapply okm_bind; [|binder; mauto].
  apply okm_mod_scope; [assumption|cbn; auto|]. intros wx sc E [A B G C [D2 D3]]. constructor; cbn; auto using vars_remove_sorted; [|constructor; auto].
  apply vars_remove_ok. assumption.
Qed.
Lemma okb_int : okb b_int.
Proof. ob. unfold b_int. mauto; unfold some; apply okm_ret; intros; apply vint_ok; destruct a2; reflexivity. Qed.
Lemma okb_search : okb b_search.
Proof. ob. unfold b_search. cbv zeta. mauto. Qed.
Lemma okb_ne : okb b_ne.
Proof. ob. unfold b_ne. apply okm_cmp_fun; auto. intros. pauto. Qed.
Lemma okb_cmp : okb b_eq /\ okb b_lt /\ okb b_gt /\ okb b_le /\ okb b_ge.
Proof. repeat match goal with |- _ /\ _ => split end; ob; apply okm_cmp_fun; eauto with oks. Qed.
Lemma okop_reads : forall f, (forall st l r, ok st -> ok_var st l -> ok_var st r -> oks (f l r st) (ok_var st)) ->
  okop (fun l r => reads (f l r)).
Proof. intros f H w a b Ha Hb. apply okm_reads. intros st E K. up E. apply H; assumption. Qed.
Lemma okb_arith : okb b_add /\ okb b_mul /\ okb b_div /\ okb b_mod.
Proof.
  repeat match goal with |- _ /\ _ => split end; ob; apply okm_arith_operation; auto using okm_v_add; apply okop_reads; auto with oks.
Qed.
Lemma okb_sub : okb b_sub.
Proof.
  ob. assert (S : okm w (arith_operation (fun l r => reads (v_sub l r)) a) okres).
  { apply okm_arith_operation; auto. apply okop_reads; auto with oks. }
  unfold b_sub. destruct a as [|p [|q a]]; auto. osimp. mauto.
Qed.
Lemma okb_bits : okb b_shl /\ okb b_shr /\ okb b_bitand /\ okb b_bitor /\ okb b_bitxor.
Proof.
  repeat match goal with |- _ /\ _ => split end; ob; w2; apply okm_int_op; auto using oks_shl, oks_shr; intros; cbn [oks]; auto using lor_in, land_in, lxor_in.
Qed.
Lemma okb_bitnot : okb b_bitnot.
Proof. ob. unfold b_bitnot. w1. mauto. Qed.
Lemma okb_len : okb b_len.
Proof.
  ob. unfold b_len. cbv zeta. mstep. mstep. destruct (is_ty TNative a1) eqn:N; [|mauto].
  destruct (tag_val _ _ _ H N) as [o [Eo [TT Ho]]]; try discriminate. rewrite Eo. destruct o; cbn in TT; try contradiction.
  cbn [ok_obj] in Ho. mauto.
Qed.
Lemma okb_str : okb b_str.
Proof.
  ob. unfold b_str. mstep. mstep. mstep. mstep; [|mauto]. eapply okm_bind; [|binder; mauto].
  apply okm_reads with (Q := tt2). intros st E K. up E. apply oks_show; [assumption|].
  cbn. destruct (v_val a2) as [o|] eqn:Ev; auto. eapply vval_ok; eauto.
Qed.
Lemma okb_type : okb b_type.
Proof.
  ob. unfold b_type. w1. apply okm_ret. intros. apply vint_ok. destruct (v_ty v); reflexivity.
Qed.
Lemma okb_makedict : okb b_makedict.
Proof.
  ob. unfold b_makedict. mstep. eapply okm_bind; [apply okm_alloc_dict; exact I|binder; mauto].
Qed.
Ltac locate :=
  eapply okm_bind; [apply okm_reads with (Q := dpos_ok); let E := fresh in let K := fresh in
    intros ? E K; up E; apply oks_dict_locate; assumption|].
Lemma okb_dictset : okb b_dictset.
Proof.
  ob. unfold b_dictset. cbv zeta. do 5 mstep. locate. intros wx p E Hp. up E. clear E. destruct Hp as [P1 [P2 P3]].
  eapply okm_bind; [|binder; mauto]. apply okm_put_dict; [assumption|]. apply all_app. split; [exact P1|]. split; [|exact P2].
  cbn [fst snd]. split; [destruct (dp_hit p) as [[k o]|]; tauto|].
  destruct (v_val a3) as [o|] eqn:Ev; auto. eapply vval_ok; eauto.
Qed.
Lemma okb_dictget : okb b_dictget.
Proof.
  ob. unfold b_dictget. cbv zeta. do 4 mstep. locate. intros wx p E Hp. up E. clear E. destruct Hp as [P1 [P2 P3]].
  destruct (dp_hit p) as [[k [o|]]|]; osimp; mauto.
Qed.
Lemma okb_dictremove : okb b_dictremove.
Proof.
  ob. unfold b_dictremove. cbv zeta. do 4 mstep. locate. intros wx p E Hp. up E. clear E. destruct Hp as [P1 [P2 P3]].
  destruct (dp_hit p) as [ko|]; [|mauto]. eapply okm_bind; [|binder; mauto]. apply okm_put_dict; [assumption|].
  apply all_app. auto.
Qed.
Lemma okb_dictkeys : okb b_dictkeys.
Proof.
  ob. unfold b_dictkeys. do 3 mstep. eapply okm_bind; [apply okm_new_var_ptrs|binder; mauto].
  clear - H0. induction a2 as [|[k o] d IH]; cbn; [exact I|]. destruct H0 as [[H1 _] H2]. split; [exact H1|]. auto.
Qed.
Lemma okb_dictclear : okb b_dictclear.
Proof.
  ob. unfold b_dictclear. do 3 mstep. eapply okm_bind; [|binder; mauto]. apply okm_put_dict; [assumption|exact I].
Qed.
Lemma okb_dicthaskey : okb b_dicthaskey.
Proof. ob. unfold b_dicthaskey. do 4 mstep. locate. binder. mauto. Qed.
Lemma okb_dicthasvalue : okb b_dicthasvalue.
Proof.
  ob. unfold b_dicthasvalue. do 4 mstep. eapply okm_bind; [|binder; mauto].
  apply okm_reads with (Q := tt2). intros st E K. up E. apply oks_dict_has_value; auto.
  destruct (v_val a2) as [o|] eqn:Ev; cbn; auto. eapply vval_ok; eauto.
Qed.
Lemma okb_filewrite : okb b_filewrite.
Proof.
  ob. unfold b_filewrite. do 5 mstep. eapply okm_bind; [apply okm_reads with (Q := tt2); intros; exact I|binder; mauto].
Qed.
Lemma okb_setf : okb (b_setf R).
Proof.
  ob. unfold b_setf. do 6 mstep. mstep; [mauto|]. do 5 mstep. mstep; [|mauto].
  destruct (is_ty TLValue a9) eqn:N; [|mauto].
  destruct (tag_val _ _ _ H4 N) as [o [Eo [TT Ho]]]; try discriminate. rewrite Eo. destruct o; cbn in TT; try contradiction.
  cbn [ok_obj] in Ho. leaf.
Qed.
Lemma okb_if : okb (b_if R).
Proof.
  ob. unfold b_if. mstep; [mauto|]. do 5 mstep. apply or_eval; auto. destruct a4; auto.
  destruct (nth_error a 2) eqn:N; [|exact I]. eapply okv_nth; eauto.
Qed.
Lemma okb_fn : okb b_fn.
Proof.
  ob. unfold b_fn. mstep. cbv zeta. destruct (match s_userdoc a0 with Some d => d | None => _ end) as [sig doc].
  unfold some. apply okm_ret. intros wx E. up E. cbn. auto.
Qed.
Lemma okm_call_builtin : forall b, okb (call_builtin R b).
Proof.
  intros b. destruct okb_cmp as [? [? [? []]]]. destruct okb_arith as [? [? []]]. destruct okb_bits as [? [? [? []]]].
  destruct b; cbn [call_builtin]; auto using okb_htmldoc, okb_delvar, okb_int, okb_search, okb_ne, okb_sub, okb_bitnot, okb_len,
   okb_str, okb_type, okb_makedict, okb_dictset, okb_dictget, okb_dictremove, okb_dictkeys, okb_dictclear, okb_dicthaskey,
   okb_dicthasvalue, okb_filewrite, okb_setf, okb_if, okb_fn; ob; try leaf;
    try (match goal with |- okm _ (?f _ _ _) _ => unfold f | |- okm _ (?f _ _) _ => unfold f end);
  try solve [mauto]; try solve [w0; mauto]; try solve [w1; mauto]; try solve [w2; mauto];
  try solve [apply okm_math1; [intro; exact I|assumption..]];
  try solve [apply okm_b_strfun; auto with oks].
Qed.
Lemma okm_call : forall w f a s, ok_fn w f -> all (ok_ptr w) a -> scope_in w s -> okm w (call R f a s) okres.
Proof.
  intros w f a s Hf Ha Hs. unfold call. destruct f as [c]. cbn [fn_code]. cbn [ok_fn] in Hf. destruct c; cbn [ok_code] in Hf.
  - apply okm_call_builtin; assumption.
  - destruct Hf as [Hf1 Hf2]. apply okm_caller with (s := s); [assumption|]. intros st E C. up E. apply okm_call_closure; assumption.
Qed.
Lemma okm_load_tree : forall t w, tree_ok t -> okm w (load_tree t) ok_ptr.
Proof.
  fix IH 1. intros [tk|n|ts] w H; cbn [load_tree].
  - apply okm_new_var_ptr. apply var_of_token_ok. exact H.
  - mauto.
  - cbn [tree_ok] in H. eapply okm_bind; [|intros w' ps E Hps; apply okm_new_list_ptr; exact Hps].
    revert w H. induction ts as [|t ts IHts]; intros w H; [mauto|]. destruct H as [H1 H2].
    eapply okm_bind; [apply IH; exact H1|]. intros w' p E Hp. eapply okm_bind; [apply IHts; exact H2|]. binder. mauto.
Qed.
Lemma okm_lisp_eval : forall w t o c s m, scope_in w s -> okm w (lisp_eval R t o c s m) okres.
Proof.
  intros w t o c s m Hs. unfold lisp_eval. mstep. mstep. eapply okm_bind.
  - apply okm_lift. intros st E. apply oks_tokenize.
  - intros w' ts E Hts. up E. clear E. mstep. eapply okm_bind.
    + apply okm_lift. intros st E. apply oks_parse_toplevel. exact Hts.
    + intros wx tree E Ht. up E. clear E. eapply okm_bind; [apply okm_load_tree; exact Ht|]. binder. mauto.
Qed.
Lemma ok_step_with : forall d, (forall w e, ok_event w e -> okm w (d e) tt2) -> ok_recs (step_with R d).
Proof.
  intros d Hd. constructor; cbn; intros; auto using okm_eval_ast, okm_call, okm_expand_loop, okm_expand_once, okm_replace_symbol, okm_quasi,
    okm_while_loop, okm_lisp_eval.
Qed.
Lemma okm_no_debugger : forall w e, ok_event w e -> okm w (no_debugger e) tt2.
Proof. intros w []; cbn [ok_event no_debugger]; intros; mauto. Qed.
Lemma ok_step : ok_recs (step R).
Proof. exact (ok_step_with no_debugger okm_no_debugger). Qed.
End Step.

Lemma ok_run {T : Priv} : forall n, ok_recs (run n).
Proof.
  induction n as [|n IH]; cbn [run]; [|apply ok_step; exact IH].
  constructor; cbn; intros; first [apply okm_no_debugger; assumption|apply okm_lift; intros; exact I].
Qed.
Lemma okm_eval_script {T : Priv} : forall w n t o c m, scope_in w main_sid -> okm w (eval_script n t o c m) okres.
Proof. intros. apply okm_lisp_eval; auto using ok_run. Qed.
Lemma okm_save_eval {T : Priv} : forall w n v t o c m, scope_in w main_sid -> okm w (save_eval n v t o c m) okres.
Proof.
  intros. unfold save_eval. apply okm_try; [apply okm_eval_script; assumption|]. intros w' e k E. up E. clear E.
  destruct e; intros [= <-]; unfold report, error_value; mauto.
Qed.

(** ** No scope set aside: plain well-formedness. *)
#[export] Instance no_priv : Priv := {| privs := fun _ => False; privv := fun _ => False; privd := fun _ => False |}.
Lemma in_plain : forall w s, PositiveMap.find s (st_scopes w) <> None -> scope_in w s.
Proof. intros w s H. split; [exact H|exact (fun x => x)]. Qed.
Lemma in_found : forall w s, scope_in w s -> PositiveMap.find s (st_scopes w) <> None.
Proof. intros w s [H _]. exact H. Qed.
Lemma ok_scope_at : forall w s sc, ok w -> PositiveMap.find s (st_scopes w) = Some sc -> (s < st_nsid w)%positive /\ ok_scope w s sc.
Proof. intros w s sc K F. apply K in F. destruct F as (A & _ & B). split; [exact A|apply B; exact (fun x => x)]. Qed.

(** ** The initial state *)
Lemma vars_set_len_ok {T : Priv} : forall w es id vs, vars_ok w vs -> keys_sorted vs ->
  vars_ok w (fst (table_vars es id vs)) /\ keys_sorted (fst (table_vars es id vs)).
Proof.
  induction es as [|[[[[[[name b] sig] doc] bi] sp] ex] es IH]; intros id vs H1 H2; cbn [table_vars]; [auto|].
  apply IH; [apply vars_set_ok|apply vars_set_sorted]; auto. cbn. auto.
Qed.
Lemma init_scope_in : forall inp fs e s, scope_in (init_state inp fs e) s <-> s = 1%positive \/ s = 2%positive \/ s = 3%positive.
Proof.
  intros. split; [intros [H _]|intro H; apply in_plain]; revert H; unfold scope_any, init_state; cbn [st_scopes].
  - intro H. destruct (Pos.eq_dec s main_sid) as [->|N1]; [auto|]. rewrite PositiveMap.gso in H by exact N1.
    destruct (Pos.eq_dec s modules_sid) as [->|N2]; [auto|]. rewrite PositiveMap.gso in H by exact N2.
    destruct (Pos.eq_dec s macros_sid) as [->|N3]; [auto|]. rewrite PositiveMap.gso in H by exact N3.
    rewrite PositiveMap.gempty in H. contradiction.
  - intros [->|[->| ->]]; cbn; discriminate.
Qed.
Lemma ok_init : forall inp fs e, ok (init_state inp fs e).
Proof.
  intros inp fs e. constructor.
  - intros l es F. cbn in F. rewrite PositiveMap.gempty in F. discriminate.
  - intros l es F. cbn in F. rewrite PositiveMap.gempty in F. discriminate.
  - assert (S1 : scope_in (init_state inp fs e) main_sid) by (apply init_scope_in; auto).
    assert (M : forall s n, ok_scope (init_state inp fs e) s (meta_scope n)).
    { intros. constructor; cbn [meta_scope s_vars s_global s_closure s_prev s_next]; try discriminate; auto; try exact I. constructor; cbn [meta_scope s_global s_prev s_next]; discriminate. }
    intros s sc F.
    assert (L : scope_in (init_state inp fs e) s) by (apply in_plain; rewrite F; discriminate).
    apply init_scope_in in L. destruct L as [->|[->| ->]]; cbn in F; injection F as <-.
    + split; [reflexivity|].
      destruct (vars_set_len_ok (init_state inp fs e) builtin_table 5 meta_vars) as [V K].
      { unfold meta_vars. repeat apply vars_set_ok; try exact I; cbn [ok_ptr ok_obj]; apply init_scope_in; auto. }
      { unfold meta_vars. repeat apply vars_set_sorted; exact I. }
      match goal with |- ok_links ?w ?s ?sc /\ _ => assert (O : ok_scope w s sc) end.
      { constructor; [exact V|exact K|exact S1|discriminate|]. constructor; discriminate. }
      split; [exact (os_links _ _ _ O)|intros _; exact O].
    + split; [reflexivity|]. split; [apply M|]. intros _. apply M.
    + split; [reflexivity|]. split; [apply M|]. intros _. apply M.
  - intros s P. destruct P.
  - intros s P. destruct P.
  - intros s P. destruct P.
Qed.

(** What an evaluation in scope [s] leaves alone in the scopes that existed before: the fields
    other than the variables of every other scope; the identity, global scope, closure and
    caller of [s]; and, if it returns normally, also the l-value flag of [s] and an empty
    callee link. *)
Require Import String Ascii List ZArith Bool Lia.
Require Import PArith FMapPositive.
From Verif Require Import Base CppString Num Token Tokenizer Parser Value State Show ScopeOps Builtins Table Eval LispTop.
Import ListNotations.

(** Every allocated scope lies below the next free identifier. *)
Definition sdom (st : state) : Prop :=
  forall t sc, PositiveMap.find t (st_scopes st) = Some sc -> (t < st_nsid st)%positive.

(** Everything but the variables. *)
Definition same_link (a b : scope) : Prop := exists v, b = set_vars v a.
Definition weak_same (a b : scope) : Prop :=
  s_name b = s_name a /\ s_global b = s_global a /\ s_closure b = s_closure a /\ s_prev b = s_prev a.
Definition strong_same (a b : scope) : Prop :=
  weak_same a b /\ s_needlv b = s_needlv a /\ (s_next a = None -> s_next b = None).

Definition kept (K : sid -> scope -> scope -> Prop) (st st' : state) : Prop :=
  forall t sc, PositiveMap.find t (st_scopes st) = Some sc ->
  exists sc', PositiveMap.find t (st_scopes st') = Some sc' /\ K t sc sc'.
Definition K_of (on : scope -> scope -> Prop) (s : sid) : sid -> scope -> scope -> Prop :=
  fun t a b => if Pos.eqb t s then on a b else same_link a b.

Definition post {A} (s : sid) (st : state) (r : out A * state) : Prop :=
  sdom (snd r) /\ kept (K_of weak_same s) st (snd r) /\
  (is_val (fst r) = true -> kept (K_of strong_same s) st (snd r)).
Definition frm {A} (s : sid) (m : M A) : Prop := forall st, sdom st -> post s st (m st).

Lemma same_link_refl : forall a, same_link a a.
Proof. intro a. exists (s_vars a). destruct a; reflexivity. Qed.
Lemma same_link_trans : forall a b c, same_link a b -> same_link b c -> same_link a c.
Proof. intros a b c [v ->] [w ->]. exists w. reflexivity. Qed.
Lemma weak_refl : forall a, weak_same a a.
Proof. intro; repeat split. Qed.
Lemma weak_trans : forall a b c, weak_same a b -> weak_same b c -> weak_same a c.
Proof. intros a b c (?&?&?&?) (?&?&?&?). repeat split; congruence. Qed.
Lemma strong_refl : forall a, strong_same a a.
Proof. intro; split; [apply weak_refl|auto]. Qed.
Lemma strong_trans : forall a b c, strong_same a b -> strong_same b c -> strong_same a c.
Proof.
  intros a b c (?&?&?) (?&?&?). split; [eapply weak_trans; eauto|]. split; [congruence|auto].
Qed.
Lemma link_strong : forall a b, same_link a b -> strong_same a b.
Proof. intros a b [v ->]. split; [repeat split|]. split; auto. Qed.

Lemma kept_refl : forall (K : sid -> scope -> scope -> Prop), (forall t a, K t a a) -> forall st, kept K st st.
Proof. intros K H st t sc E. exists sc. auto. Qed.
Lemma kept_trans : forall (K K1 K2 : sid -> scope -> scope -> Prop),
  (forall t a b c, K1 t a b -> K2 t b c -> K t a c) ->
  forall a b c, kept K1 a b -> kept K2 b c -> kept K a c.
Proof.
  intros K K1 K2 H a b c H1 H2 t sc E. destruct (H1 t sc E) as (sc1&E1&Q1).
  destruct (H2 t sc1 E1) as (sc2&E2&Q2). exists sc2. split; [exact E2|]. eapply H; eauto.
Qed.
Lemma K_refl : forall (on : scope -> scope -> Prop) s, (forall a, on a a) -> forall t a, K_of on s t a a.
Proof. intros on s H t a. unfold K_of. destruct (t =? s)%positive; [apply H|apply same_link_refl]. Qed.
Lemma K_trans : forall (on : scope -> scope -> Prop) s, (forall a b c, on a b -> on b c -> on a c) ->
  forall t a b c, K_of on s t a b -> K_of on s t b c -> K_of on s t a c.
Proof.
  intros on s H t a b c. unfold K_of. destruct (t =? s)%positive; [apply H|apply same_link_trans].
Qed.
Lemma K_weaken : forall s t a b, K_of strong_same s t a b -> K_of weak_same s t a b.
Proof. intros s t a b. unfold K_of. destruct (t =? s)%positive; [intros [H _]; exact H|auto]. Qed.

Lemma kept_weaken : forall s st st', kept (K_of strong_same s) st st' -> kept (K_of weak_same s) st st'.
Proof. intros s st st' H t sc E. destruct (H t sc E) as (sc'&E'&Q). exists sc'. split; auto. apply K_weaken; auto. Qed.

(** Nothing happens to the scopes. *)
Lemma frm_same : forall A s (m : M A),
  (forall st, st_scopes (snd (m st)) = st_scopes st /\ st_nsid (snd (m st)) = st_nsid st) -> frm s m.
Proof.
  intros A s m H st D. destruct (H st) as [E1 E2]. split; [|split; [|intros _]].
  - intros t sc. rewrite E1, E2. apply D.
  - intros t sc E. exists sc. rewrite E1. split; auto. apply K_refl. apply weak_refl.
  - intros t sc E. exists sc. rewrite E1. split; auto. apply K_refl. apply strong_refl.
Qed.

Lemma frm_ret : forall s A (a : A), frm s (ret a).
Proof. intros. apply frm_same. auto. Qed.
Lemma frm_lift : forall s A (a : out A), frm s (lift a).
Proof. intros. apply frm_same. auto. Qed.
Lemma frm_throw : forall s A e, frm s (@throw A e).
Proof. intros. apply frm_same. auto. Qed.
Lemma frm_undef : forall s A e, frm s (@undef A e).
Proof. intros. apply frm_same. auto. Qed.
Lemma frm_unmod : forall s A e, frm s (@unmod A e).
Proof. intros. apply frm_same. auto. Qed.
Lemma frm_reads : forall s A (f : state -> out A), frm s (reads f).
Proof. intros. apply frm_same. auto. Qed.
Lemma frm_new_ptr : forall s o, frm s (new_ptr o).
Proof. intros. apply frm_same. auto. Qed.
Lemma frm_alloc_vec : forall s o, frm s (alloc_vec o).
Proof. intros. apply frm_same. auto. Qed.
Lemma frm_alloc_dict : forall s o, frm s (alloc_dict o).
Proof. intros. apply frm_same. auto. Qed.
Lemma frm_put_vec : forall s l o, frm s (put_vec l o).
Proof. intros. apply frm_same. auto. Qed.
Lemma frm_put_dict : forall s l o, frm s (put_dict l o).
Proof. intros. apply frm_same. auto. Qed.
Lemma frm_write_out : forall s o, frm s (write_out o).
Proof. intros. apply frm_same. auto. Qed.
Lemma frm_read_line : forall s, frm s read_line.
Proof. intros. apply frm_same. intro st. unfold read_line. destruct (st_in st); auto. Qed.
Lemma frm_write_file : forall s n o, frm s (write_file n o).
Proof. intros. apply frm_same. auto. Qed.
Lemma frm_dump : forall s f, frm s (dump_documentation f).
Proof. intros. apply frm_same. intro st. unfold dump_documentation. destruct (f st); auto. Qed.

Lemma frm_bind : forall s A B (m : M A) (f : A -> M B), frm s m -> (forall a, frm s (f a)) -> frm s (bind m f).
Proof.
  intros s A B m f Hm Hf st D. unfold bind. destruct (Hm st D) as (D1&W1&S1). destruct (m st) as [o st1].
  cbn [fst snd] in *. destruct o; cbn [fst snd]; try (split; [exact D1|]; split; [exact W1|discriminate]).
  specialize (S1 eq_refl). destruct (Hf a st1 D1) as (D2&W2&S2). split; [exact D2|]. split.
  - eapply kept_trans; [|exact W1|exact W2]. apply K_trans. apply weak_trans.
  - intro V. eapply kept_trans; [|exact S1|exact (S2 V)]. apply K_trans. apply strong_trans.
Qed.
(** A handler that runs after an exception starts from the weak relation only. *)
Lemma frm_try : forall s A (m : M A) h, frm s m ->
  (forall e k, h e = Some k -> forall st, sdom st -> sdom (snd (k st)) /\ kept (K_of weak_same s) st (snd (k st)) /\
                 is_val (fst (k st)) = false) ->
  frm s (try_catch m h).
Proof.
  intros s A m h Hm Hh st D. unfold try_catch. destruct (Hm st D) as (D1&W1&S1). destruct (m st) as [o st1].
  cbn [fst snd] in *. destruct o; cbn [fst snd]; try (split; [exact D1|]; split; [exact W1|auto]).
  destruct (h e) as [k|] eqn:E; cbn [fst snd]; [|split; [exact D1|]; split; [exact W1|auto]].
  destruct (Hh e k E st1 D1) as (D2&W2&V). split; [exact D2|]. split.
  - eapply kept_trans; [|exact W1|exact W2]. apply K_trans. apply weak_trans.
  - congruence.
Qed.

Lemma find_add_same : forall A k (v : A) m, PositiveMap.find k (PositiveMap.add k v m) = Some v.
Proof. intros. apply PositiveMap.gss. Qed.
Lemma find_add_other : forall A k k' (v : A) m, k <> k' ->
  PositiveMap.find k (PositiveMap.add k' v m) = PositiveMap.find k m.
Proof. intros. apply PositiveMap.gso. assumption. Qed.

Lemma mod_scope_cases : forall t f st,
  (exists sc, PositiveMap.find t (st_scopes st) = Some sc /\
     mod_scope t f st = (Val tt, with_scopes (PositiveMap.add t (f sc) (st_scopes st)) st)) \/
  (PositiveMap.find t (st_scopes st) = None /\ mod_scope t f st = (Undef UBBadPtr, st)).
Proof.
  intros t f st. unfold mod_scope, bind, reads, get_scope.
  destruct (PositiveMap.find t (st_scopes st)) as [sc|]; [left; exists sc|right]; auto.
Qed.

(** Changing one scope. *)
Lemma mod_kept : forall (K : sid -> scope -> scope -> Prop) t f st,
  (forall u a, K u a a) -> (forall sc, K t sc (f sc)) -> sdom st ->
  sdom (snd (mod_scope t f st)) /\ kept K st (snd (mod_scope t f st)).
Proof.
  intros K t f st HR HK D. destruct (mod_scope_cases t f st) as [(sc&E&R)|(E&R)]; rewrite R; cbn [snd].
  - split.
    + intros u sc'. cbn. destruct (Pos.eq_dec u t) as [->|N]; [intros _; eapply D; eauto|].
      rewrite find_add_other by exact N. apply D.
    + intros u sc' E'. cbn. destruct (Pos.eq_dec u t) as [->|N].
      * rewrite find_add_same. rewrite E in E'. inversion E'; subst. eexists. split; [reflexivity|apply HK].
      * rewrite find_add_other by exact N. eauto.
  - split; [exact D|]. apply kept_refl. exact HR.
Qed.
Lemma frm_mod_self : forall s f, (forall sc, strong_same sc (f sc)) -> frm s (mod_scope s f).
Proof.
  intros s f H st D.
  assert (HK : forall sc, K_of strong_same s s sc (f sc)).
  { intro sc. unfold K_of. rewrite Pos.eqb_refl. apply H. }
  destruct (mod_kept (K_of strong_same s) s f st (K_refl _ _ strong_refl) HK D) as [D1 K1].
  split; [exact D1|]. split; [apply kept_weaken; exact K1|intros _; exact K1].
Qed.
Lemma frm_mod_link : forall s t f, (forall sc, same_link sc (f sc)) -> frm s (mod_scope t f).
Proof.
  intros s t f H st D.
  assert (HK : forall sc, K_of strong_same s t sc (f sc)).
  { intro sc. unfold K_of. destruct (t =? s)%positive; [apply link_strong|]; apply H. }
  destruct (mod_kept (K_of strong_same s) t f st (K_refl _ _ strong_refl) HK D) as [D1 K1].
  split; [exact D1|]. split; [apply kept_weaken; exact K1|intros _; exact K1].
Qed.
Lemma frm_scope_set : forall s t k p, frm s (scope_set t k p).
Proof. intros. unfold scope_set. apply frm_mod_link. intro sc. eexists. reflexivity. Qed.

Lemma sdom_fresh : forall st, sdom st -> PositiveMap.find (st_nsid st) (st_scopes st) = None.
Proof.
  intros st D. destruct (PositiveMap.find (st_nsid st) (st_scopes st)) eqn:E; auto. apply D in E. lia.
Qed.
Lemma alloc_sdom : forall sc st, sdom st -> sdom (snd (alloc_scope sc st)).
Proof.
  intros sc st D t sc'. cbn. destruct (Pos.eq_dec t (st_nsid st)) as [->|N]; [lia|].
  rewrite find_add_other by exact N. intro E. apply D in E. lia.
Qed.
Lemma alloc_kept : forall (K : sid -> scope -> scope -> Prop) sc st, (forall u a, K u a a) -> sdom st ->
  kept K st (snd (alloc_scope sc st)).
Proof.
  intros K sc st HR D t sc' E. cbn. rewrite find_add_other; [eauto|].
  intros ->. rewrite (sdom_fresh _ D) in E. discriminate.
Qed.
Lemma frm_alloc_scope : forall s sc, frm s (alloc_scope sc).
Proof.
  intros s sc st D. split; [apply alloc_sdom; exact D|]. split; [|intros _]; apply alloc_kept; auto; apply K_refl.
  - apply weak_refl. - apply strong_refl.
Qed.

Global Hint Resolve frm_ret frm_lift frm_throw frm_undef frm_unmod frm_reads frm_new_ptr frm_alloc_vec frm_alloc_dict
  frm_put_vec frm_put_dict frm_write_out frm_read_line frm_write_file frm_dump frm_scope_set frm_alloc_scope : frm.

Ltac fself := apply frm_mod_self; intro; split; [repeat split|split; [reflexivity|auto]].
Ltac fstep :=
  match goal with
  | |- frm _ (bind _ _) => apply frm_bind; [|intros ?]
  | |- frm _ (let x := _ in _) => cbv zeta
  | |- frm _ (match ?x with _ => _ end) => destruct x
  | |- forall _, _ => intro
  end.
Ltac fauto := repeat (first [solve [auto 3 with frm] | fstep]).

Lemma frm_some : forall s v, frm s (some v).
Proof. intros. apply frm_ret. Qed.
Lemma frm_new_list_obj : forall s es, frm s (new_list_obj es).
Proof. intros. unfold new_list_obj. fauto. Qed.
Global Hint Resolve frm_some frm_new_list_obj : frm.
Lemma frm_new_list_ptr : forall s es, frm s (new_list_ptr es).
Proof. intros. unfold new_list_ptr. fauto. Qed.
Lemma frm_new_var_ptr : forall s v, frm s (new_var_ptr v).
Proof. intros. unfold new_var_ptr. fauto. Qed.
Lemma frm_obj_copy : forall s o, frm s (obj_copy o).
Proof. intros. unfold obj_copy. fauto. Qed.
Global Hint Resolve frm_new_list_ptr frm_new_var_ptr frm_obj_copy : frm.
Lemma frm_scope_index : forall s t k, frm s (scope_index t k).
Proof. intros. unfold scope_index. fauto. Qed.
Lemma frm_new_scope : forall s n g m, frm s (new_scope n g m).
Proof. intros. unfold new_scope. fauto. Qed.
Global Hint Resolve frm_scope_index frm_new_scope : frm.
Lemma frm_find_in_modules : forall s n g, frm s (find_in_modules n g).
Proof. intros. unfold find_in_modules. fauto. Qed.
Global Hint Resolve frm_find_in_modules : frm.
Lemma frm_resolve : forall s t e, frm s (resolve t e).
Proof. intros. unfold resolve. fauto. Qed.
Lemma frm_throw_scope : forall s A m t, frm s (@throw_scope A m t).
Proof. intros. unfold throw_scope. fauto. Qed.
Lemma frm_throw_token : forall s A m t u, frm s (@throw_token A m t u).
Proof. intros. unfold throw_token. fauto. Qed.
Global Hint Resolve frm_resolve frm_throw_scope frm_throw_token : frm.
Lemma frm_set_in_scopes : forall s t n v, frm s (set_in_scopes t n v).
Proof. intros. unfold set_in_scopes. fauto. Qed.
Lemma frm_check_args : forall s n c a t, frm s (check_args n c a t).
Proof. intros. unfold check_args. fauto. Qed.
Lemma frm_check_opt_args : forall s n c d a t, frm s (check_opt_args n c d a t).
Proof. intros. unfold check_opt_args. fauto. Qed.
Lemma frm_arg : forall s i a, frm s (arg i a).
Proof. intros. unfold arg. fauto. Qed.
Lemma frm_some_var : forall s r, frm s (some_var r).
Proof. intros. unfold some_var. fauto. Qed.
Lemma frm_write_line : forall s t, frm s (write_line t).
Proof. intros. unfold write_line. fauto. Qed.
Global Hint Resolve frm_set_in_scopes frm_check_args frm_check_opt_args frm_arg frm_some_var frm_write_line : frm.
Lemma frm_write_fmt : forall s f a, frm s (write_fmt f a).
Proof. intros. unfold write_fmt. fauto. Qed.
Lemma frm_check_for_function : forall s n p t, frm s (check_for_function n p t).
Proof. intros. unfold check_for_function. fauto. Qed.
Lemma frm_check_for_list : forall s n p t, frm s (check_for_list n p t).
Proof. intros. unfold check_for_list. fauto. Qed.
Lemma frm_string_repr : forall s a t, frm s (string_repr a t).
Proof. intros. unfold string_repr. fauto. Qed.
Global Hint Resolve frm_write_fmt frm_check_for_function frm_check_for_list frm_string_repr : frm.
Lemma frm_argv : forall s i a, frm s (argv i a).
Proof. intros. unfold argv. fauto. Qed.
Lemma frm_argc : forall s i a, frm s (argc i a).
Proof. intros. unfold argc. fauto. Qed.
Lemma frm_args_str : forall s i a, frm s (args_str i a).
Proof. intros. unfold args_str. fauto. Qed.
Global Hint Resolve frm_argv frm_argc frm_args_str : frm.
Lemma frm_wrap0 : forall s n f a t, frm s f -> frm s (wrap0 n f a t).
Proof. intros. unfold wrap0. fauto. Qed.
Lemma frm_wrap1 : forall s n f a t, (forall v, frm s (f v)) -> frm s (wrap1 n f a t).
Proof. intros. unfold wrap1. fauto. Qed.
Lemma frm_wrap2 : forall s n f a t, (forall v w, frm s (f v w)) -> frm s (wrap2 n f a t).
Proof. intros. unfold wrap2. fauto. Qed.
Lemma frm_doc_items : forall s sel items t, frm s (doc_items sel items t).
Proof. induction items; intros; cbn [doc_items]; fauto. Qed.
Global Hint Resolve frm_doc_items : frm.
Lemma frm_search_documentation : forall s sel a t, frm s (search_documentation sel a t).
Proof. intros. unfold search_documentation. fauto. Qed.
Lemma frm_dump_vars : forall s vs, frm s (dump_vars vs).
Proof. induction vs; cbn [dump_vars]; fauto. Qed.
Lemma frm_arith_loop : forall s op, (forall a b, frm s (op a b)) -> forall args acc, frm s (arith_loop op args acc).
Proof. intros s op H. induction args; intros; cbn [arith_loop]; fauto. Qed.
Global Hint Resolve frm_search_documentation frm_dump_vars frm_arith_loop : frm.
Lemma frm_arith_operation : forall s op, (forall a b, frm s (op a b)) -> forall args, frm s (arith_operation op args).
Proof. intros. unfold arith_operation. fauto. Qed.
Lemma frm_v_add : forall s a b, frm s (v_add a b).
Proof. intros. unfold v_add. fauto. Qed.
Lemma frm_list_result : forall s es, frm s (list_result es).
Proof. intros. unfold list_result. fauto. Qed.
Lemma frm_elem_at : forall s es i, frm s (elem_at es i).
Proof. intros. unfold elem_at. fauto. Qed.
Lemma frm_args_list : forall s t, frm s (args_list t).
Proof. intros. unfold args_list. fauto. Qed.
Lemma frm_dict_arg : forall s a, frm s (dict_arg a).
Proof. intros. unfold dict_arg. fauto. Qed.
Lemma frm_new_var_ptrs : forall s vs, frm s (new_var_ptrs vs).
Proof. induction vs; cbn [new_var_ptrs]; fauto. Qed.
Lemma frm_int_op : forall s f a b, frm s (int_op f a b).
Proof. intros. unfold int_op. fauto. Qed.
Global Hint Resolve frm_wrap0 frm_wrap1 frm_wrap2 frm_arith_operation frm_v_add frm_list_result frm_elem_at
  frm_args_list frm_dict_arg frm_new_var_ptrs frm_int_op : frm.
Lemma frm_cmp_fun : forall s n f a t, frm s (cmp_fun n f a t).
Proof. intros. unfold cmp_fun. apply frm_wrap2. fauto. Qed.
Lemma frm_b_strfun : forall s n f a t, frm s (b_strfun n f a t).
Proof. intros. unfold b_strfun. apply frm_wrap1. fauto. Qed.
Lemma frm_math1 : forall s n f a t, frm s (math1 n f a t).
Proof. intros. unfold math1. fauto. Qed.
(** The state is unchanged inside the try blocks of parse-integer and parse-float. *)
Lemma same_bind : forall A B (m : M A) (f : A -> M B),
  (forall st, snd (m st) = st) -> (forall a st, snd (f a st) = st) -> forall st, snd (bind m f st) = st.
Proof.
  intros A B m f H1 H2 st. unfold bind. specialize (H1 st). destruct (m st) as [o st1]. cbn [snd] in H1. subst st1.
  destruct o; auto.
Qed.
Lemma same_catch_all : forall m, (forall st, snd (m st) = st) -> forall st, snd (catch_all m st) = st.
Proof.
  intros m H st. unfold catch_all, try_catch. specialize (H st). destruct (m st) as [o st1]. cbn [snd] in H. subst.
  destruct o; reflexivity.
Qed.
Lemma same_arg : forall i a st, snd (arg i a st) = st.
Proof. intros. unfold arg. destruct (nth_error a i); reflexivity. Qed.
Lemma same_argc : forall i a st, snd (argc i a st) = st.
Proof. intros i a. unfold argc. apply same_bind; [apply same_arg|reflexivity]. Qed.
Lemma frm_b_parseint : forall s a t, frm s (b_parseint a t).
Proof.
  intros. unfold b_parseint. apply frm_bind; [auto with frm|intros _]. apply frm_same. intro st.
  rewrite same_catch_all; [auto|]. clear st.
  apply same_bind; [apply same_argc|intro]. apply same_bind; [reflexivity|intro].
  apply same_bind; [reflexivity|intros r st]. destruct (snd r <? length a1)%nat; reflexivity.
Qed.
Lemma frm_b_parsefloat : forall s a t, frm s (b_parsefloat a t).
Proof.
  intros. unfold b_parsefloat. apply frm_bind; [auto with frm|intros _]. apply frm_same. intro st.
  rewrite same_catch_all; [auto|]. clear st.
  apply same_bind; [apply same_argc|intro]. apply same_bind; [reflexivity|intro].
  apply same_bind; [reflexivity|reflexivity].
Qed.
Global Hint Resolve frm_cmp_fun frm_b_strfun frm_math1 frm_b_parseint frm_b_parsefloat : frm.

(** ** The evaluator *)
Record frm_recs (Q : recs) : Prop := {
  fr_eval : forall p s, frm s (r_eval Q p s);
  fr_call : forall f a s, frm s (r_call Q f a s);
  fr_expand : forall p s, frm s (r_expand Q p s);
  fr_expand1 : forall p s, frm s (r_expand1 Q p s);
  fr_replace : forall s v p e b, frm s (r_replace Q v p e b);
  fr_quasi : forall e s, frm s (r_quasi Q e s);
  fr_while : forall c b s r, frm s (r_while Q c b s r);
  fr_script : forall c s m, frm s (r_script Q c s m);
  fr_dbg : forall e s, frm s (r_dbg Q e) }.
Global Hint Resolve fr_eval fr_call fr_expand fr_expand1 fr_replace fr_quasi fr_while fr_script fr_dbg : frm.

(** *** Callees: computations in a scope [c] that the caller [ls] does not know yet *)

(** Anything may happen to [c]; the variables of other scopes may change, nothing else. *)
Definition frmx {A} (c : sid) (m : M A) : Prop :=
  forall st, sdom st -> sdom (snd (m st)) /\ kept (fun t a b => t <> c -> same_link a b) st (snd (m st)).

Lemma frmx_frm : forall A c (m : M A), frm c m -> frmx c m.
Proof.
  intros A c m H st D. destruct (H st D) as (D1&W&_). split; [exact D1|].
  intros t sc E. destruct (W t sc E) as (sc'&E'&Q). exists sc'. split; [exact E'|]. intro N.
  unfold K_of in Q. replace (t =? c)%positive with false in Q by (symmetry; apply Pos.eqb_neq; assumption). exact Q.
Qed.
Lemma frmx_mod : forall c f, frmx c (mod_scope c f).
Proof.
  intros c f st D. apply mod_kept; [| |exact D].
  - intros; apply same_link_refl. - intros sc N. congruence.
Qed.

(** The caller [ls] has entered [c], everything else is as in [st0]. *)
Definition entered (c ls : sid) (st0 st : state) : Prop :=
  sdom st /\ PositiveMap.find ls (st_scopes st0) <> None /\
  forall t sc, PositiveMap.find t (st_scopes st0) = Some sc -> t <> c /\
  exists sc', PositiveMap.find t (st_scopes st) = Some sc' /\
    (if Pos.eqb t ls then same_link (set_next (Some c) sc) sc' else same_link sc sc').
(** The rest of the call, up to and including PopNextScope. *)
Definition rest_of_call {A} (c ls : sid) (m : M A) : Prop :=
  forall st0 st, entered c ls st0 st -> post ls st0 (m st).

Lemma entered_weak : forall c ls st0 st, entered c ls st0 st -> kept (K_of weak_same ls) st0 st.
Proof.
  intros c ls st0 st (_&_&H) t sc E. destruct (H t sc E) as (_&sc'&E'&Q). exists sc'. split; [exact E'|].
  unfold K_of. destruct (t =? ls)%positive; [|exact Q]. destruct Q as [v ->]. repeat split.
Qed.
Lemma entered_step : forall A c ls (m : M A) st0 st, frmx c m -> entered c ls st0 st -> entered c ls st0 (snd (m st)).
Proof.
  intros A c ls m st0 st Hm (D&L&H). destruct (Hm st D) as [D1 W]. split; [exact D1|]. split; [exact L|].
  intros t sc E. destruct (H t sc E) as (N&sc1&E1&Q1). split; [exact N|].
  destruct (W t sc1 E1) as (sc2&E2&Q2). exists sc2. split; [exact E2|]. specialize (Q2 N).
  destruct (t =? ls)%positive; eapply same_link_trans; eauto.
Qed.
Lemma roc_bind : forall A B c ls (m : M A) (f : A -> M B),
  frmx c m -> (forall a, rest_of_call c ls (f a)) -> rest_of_call c ls (bind m f).
Proof.
  intros A B c ls m f Hm Hf st0 st En. pose proof (entered_step _ _ _ _ _ _ Hm En) as En1. unfold bind.
  destruct (m st) as [o st1]. cbn [snd] in En1.
  destruct o; cbn [fst snd];
    try (split; [apply En1|]; split; [eapply entered_weak; eauto|discriminate]).
  apply Hf. exact En1.
Qed.
Lemma mod_scope_hit : forall t f st sc, PositiveMap.find t (st_scopes st) = Some sc ->
  mod_scope t f st = (Val tt, with_scopes (PositiveMap.add t (f sc) (st_scopes st)) st).
Proof. intros t f st sc E. unfold mod_scope, bind, reads, get_scope. rewrite E. reflexivity. Qed.
Lemma mod_scope_miss : forall t f st, PositiveMap.find t (st_scopes st) = None ->
  mod_scope t f st = (Undef UBBadPtr, st).
Proof. intros t f st E. unfold mod_scope, bind, reads, get_scope. rewrite E. reflexivity. Qed.
Lemma pop_next_hit : forall ls st sl c scc,
  PositiveMap.find ls (st_scopes st) = Some sl -> s_next sl = Some c ->
  PositiveMap.find c (st_scopes st) = Some scc -> ls <> c ->
  pop_next ls st = (Val tt, with_scopes (PositiveMap.add ls (set_next None sl)
                              (PositiveMap.add c (set_prev None scc) (st_scopes st))) st).
Proof.
  intros ls st sl c scc E1 E2 E3 N. unfold pop_next. unfold bind at 1. unfold reads, get_scope. rewrite E1, E2.
  unfold bind at 1. rewrite (mod_scope_hit _ _ _ _ E3).
  rewrite (mod_scope_hit _ _ _ sl); [reflexivity|].
  cbn [st_scopes with_scopes]. rewrite find_add_other by exact N. exact E1.
Qed.
Lemma pop_next_miss : forall ls st sl c,
  PositiveMap.find ls (st_scopes st) = Some sl -> s_next sl = Some c ->
  PositiveMap.find c (st_scopes st) = None -> pop_next ls st = (Undef UBBadPtr, st).
Proof.
  intros ls st sl c E1 E2 E3. unfold pop_next. unfold bind at 1. unfold reads, get_scope. rewrite E1, E2.
  unfold bind at 1. rewrite (mod_scope_miss _ _ _ E3). reflexivity.
Qed.
Lemma roc_end : forall A c ls (r : A), rest_of_call c ls (pop_next ls ;; ret r).
Proof.
  intros A c ls r st0 st En. pose proof (entered_weak _ _ _ _ En) as W0. destruct En as (D&L&H).
  destruct (PositiveMap.find ls (st_scopes st0)) as [sl|] eqn:E0; [clear L|congruence].
  destruct (H ls sl E0) as (Nc&sl'&El&Q). rewrite Pos.eqb_refl in Q. destruct Q as [v ->].
  unfold bind. destruct (PositiveMap.find c (st_scopes st)) as [scc|] eqn:Ec.
  2: { rewrite (pop_next_miss _ _ _ _ El eq_refl Ec). split; [exact D|]. split; [exact W0|discriminate]. }
  rewrite (pop_next_hit _ _ _ _ _ El eq_refl Ec Nc). cbn [ret fst snd].
  assert (D1 : sdom (with_scopes (PositiveMap.add ls (set_next None (set_vars v (set_next (Some c) sl)))
                       (PositiveMap.add c (set_prev None scc) (st_scopes st))) st)).
  { intros t sct. cbn [st_scopes with_scopes st_nsid]. destruct (Pos.eq_dec t ls) as [->|N1]; [intros _; eapply D; eauto|].
    rewrite find_add_other by exact N1. destruct (Pos.eq_dec t c) as [->|N2]; [intros _; eapply D; eauto|].
    rewrite find_add_other by exact N2. apply D. }
  assert (K1 : kept (K_of strong_same ls) st0 (with_scopes (PositiveMap.add ls (set_next None (set_vars v (set_next (Some c) sl)))
                       (PositiveMap.add c (set_prev None scc) (st_scopes st))) st)).
  { intros t sct Et. cbn [st_scopes with_scopes]. unfold K_of. destruct (Pos.eqb_spec t ls) as [->|N1].
    - rewrite find_add_same. eexists. split; [reflexivity|]. assert (sct = sl) by congruence. subst.
      split; [repeat split|]. split; reflexivity.
    - rewrite find_add_other by exact N1. destruct (H t sct Et) as (N2&sct'&Et'&Q).
      rewrite find_add_other by exact N2. exists sct'. split; [exact Et'|].
      replace (t =? ls)%positive with false in Q by (symmetry; apply Pos.eqb_neq; assumption). exact Q. }
  split; [exact D1|]. split; [apply kept_weaken; exact K1|intros _; exact K1].
Qed.

Lemma frm_enter : forall A ls name modname (body : sid -> sid -> M A),
  (forall g c, rest_of_call c ls (body g c)) ->
  frm ls (let! g := global_of ls in let! c := new_scope name g modname in push_next ls c ;; body g c).
Proof.
  intros A ls name modname body H st D.
  assert (B : forall (o : out A), is_val o = false -> post ls st (o, st)).
  { intros o V. split; [exact D|]. split; [apply kept_refl; apply K_refl; apply weak_refl|cbn; congruence]. }
  unfold bind at 1. unfold global_of, bind at 1, reads, get_scope.
  destruct (PositiveMap.find ls (st_scopes st)) as [sl|] eqn:El; cbn [ret]; [|apply B; reflexivity].
  unfold bind at 1. unfold new_scope, bind at 1, reads, get_scope.
  destruct (PositiveMap.find (s_global sl) (st_scopes st)) as [gs|] eqn:Eg; [|apply B; reflexivity].
  set (fs := fresh_scope name (s_global sl) (s_module gs) modname).
  unfold alloc_scope. set (c := st_nsid st).
  set (st1 := with_nsid (Pos.succ c) (with_scopes (PositiveMap.add c fs (st_scopes st)) st)).
  assert (Nc : ls <> c). { apply D in El. unfold c. lia. }
  assert (E1 : PositiveMap.find ls (st_scopes st1) = Some sl).
  { cbn. rewrite find_add_other by exact Nc. exact El. }
  unfold bind at 1. unfold push_next, bind at 1. rewrite (mod_scope_hit _ _ _ _ E1).
  rewrite (mod_scope_hit _ _ _ fs).
  2: { cbn. rewrite find_add_other by (intro X; symmetry in X; contradiction). apply find_add_same. }
  cbn [st_scopes with_scopes]. apply H. split; [|split; [congruence|]].
  - intros t sct. cbn. destruct (Pos.eq_dec t c) as [->|N1]; [unfold c; lia|]. rewrite find_add_other by exact N1.
    destruct (Pos.eq_dec t ls) as [->|N2]; [intros _; apply D in El; lia|]. rewrite find_add_other by exact N2.
    rewrite find_add_other by exact N1. intro E. apply D in E. lia.
  - intros t sct Et. assert (N1 : t <> c) by (intros ->; apply D in Et; unfold c in Et; lia).
    split; [exact N1|]. cbn. rewrite find_add_other by exact N1. destruct (Pos.eqb_spec t ls) as [->|N2].
    + rewrite find_add_same. eexists. split; [reflexivity|]. assert (sct = sl) by congruence. subst. apply same_link_refl.
    + rewrite find_add_other by exact N2. rewrite find_add_other by exact N1. exists sct. split; [exact Et|apply same_link_refl].
Qed.

(** *** A region in which the l-value flag of [s] differs and is put back at the end *)

(** All fields but variables and l-value flag. *)
Definition flag_same (b : bool) (a a' : scope) : Prop := strong_same (set_needlv b a) a'.
Definition in_region {A} (s : sid) (b : bool) (m : M A) : Prop :=
  forall st0 st, sdom st -> PositiveMap.find s (st_scopes st0) <> None ->
    (forall sc, PositiveMap.find s (st_scopes st0) = Some sc -> s_needlv sc = b) ->
    (exists b', kept (K_of (flag_same b') s) st0 st) ->
    post s st0 (m st).

Lemma flag_weak : forall b s st0 st, kept (K_of (flag_same b) s) st0 st -> kept (K_of weak_same s) st0 st.
Proof.
  intros b s st0 st H t sc E. destruct (H t sc E) as (sc'&E'&Q). exists sc'. split; [exact E'|].
  unfold K_of in *. destruct (t =? s)%positive; [|exact Q]. destruct Q as (W&_). exact W.
Qed.
Lemma region_bind : forall A B s b (m : M A) (f : A -> M B),
  frm s m -> (forall a, in_region s b (f a)) -> in_region s b (bind m f).
Proof.
  intros A B s b m f Hm Hf st0 st D L Hb (b'&K0). destruct (Hm st D) as (D1&W1&S1). unfold bind.
  assert (W : kept (K_of weak_same s) st0 (snd (m st))).
  { eapply kept_trans; [|eapply flag_weak; exact K0|exact W1]. apply K_trans, weak_trans. }
  destruct (m st) as [o st1]. cbn [fst snd] in *.
  destruct o; cbn [fst snd]; try (split; [exact D1|]; split; [exact W|discriminate]).
  specialize (S1 eq_refl). apply Hf; [exact D1|exact L|exact Hb|]. exists b'.
  eapply kept_trans; [|exact K0|exact S1]. intros t x y z. unfold K_of. destruct (t =? s)%positive.
  - unfold flag_same. apply strong_trans.
  - apply same_link_trans.
Qed.
Lemma region_end : forall A s b (m : M A), frm s m -> in_region s b (mod_scope s (set_needlv b) ;; m).
Proof.
  intros A s b m Hm st0 st D L Hb (b'&K0). unfold bind.
  destruct (mod_scope_cases s (set_needlv b) st) as [(sc&E&R)|(E&R)]; rewrite R; cbn [fst snd].
  2: { split; [exact D|]. split; [eapply flag_weak; eauto|discriminate]. }
  set (st1 := with_scopes _ st).
  assert (D1 : sdom st1).
  { intros t sct. cbn. destruct (Pos.eq_dec t s) as [->|N1]; [intros _; eapply D; eauto|].
    rewrite find_add_other by exact N1. apply D. }
  assert (K1 : kept (K_of strong_same s) st0 st1).
  { intros t sct Et. cbn. destruct (K0 t sct Et) as (sct'&Et'&Q). unfold K_of in *.
    destruct (Pos.eqb_spec t s) as [->|N1].
    - rewrite find_add_same. eexists. split; [reflexivity|]. assert (sct' = sc) by congruence. subst.
      destruct Q as (W&Q1&Q2). split; [exact W|]. split; [cbn; symmetry; apply Hb; exact Et|exact Q2].
    - rewrite find_add_other by exact N1. eauto. }
  destruct (Hm st1 D1) as (D2&W2&S2). split; [exact D2|]. split.
  - eapply kept_trans; [|apply kept_weaken; exact K1|exact W2]. apply K_trans, weak_trans.
  - intro V. eapply kept_trans; [|exact K1|exact (S2 V)]. apply K_trans, strong_trans.
Qed.
Lemma frm_region : forall A s b' (m : scope -> M A),
  (forall sc, in_region s (s_needlv sc) (m sc)) ->
  frm s (let! sc := reads (get_scope s) in mod_scope s (set_needlv b') ;; m sc).
Proof.
  intros A s b' m H st D. unfold bind at 1. unfold reads, get_scope.
  destruct (PositiveMap.find s (st_scopes st)) as [sc|] eqn:E; cbn [fst snd].
  2: { split; [exact D|]. split; [apply kept_refl; apply K_refl; apply weak_refl|discriminate]. }
  unfold bind at 1. rewrite (mod_scope_hit _ _ _ _ E). apply H.
  - intros t sct. cbn. destruct (Pos.eq_dec t s) as [->|N1]; [intros _; eapply D; eauto|].
    rewrite find_add_other by exact N1. apply D.
  - congruence.
  - intros sc' E'. congruence.
  - exists b'. intros t sct Et. cbn. unfold K_of. destruct (Pos.eqb_spec t s) as [->|N1].
    + rewrite find_add_same. eexists. split; [reflexivity|]. assert (sct = sc) by congruence. subst. apply strong_refl.
    + rewrite find_add_other by exact N1. exists sct. split; [exact Et|apply same_link_refl].
Qed.

Section Step.
Variable Q : recs.
Hypothesis HQ : frm_recs Q.

Lemma frm_global_of : forall s t, frm s (global_of t).
Proof. intros. unfold global_of. fauto. Qed.
Lemma frm_resolve_elem : forall s p t, frm s (resolve_elem p t).
Proof. intros. unfold resolve_elem. fauto. Qed.
Local Hint Resolve frm_global_of frm_resolve_elem : frm.
Lemma frm_resolve_elems : forall s ps t, frm s (resolve_elems ps t).
Proof. induction ps; intros; cbn [resolve_elems]; fauto. Qed.
Lemma frm_head_function : forall s q t, frm s (head_function q t).
Proof.
  intros. unfold head_function. apply frm_bind; [auto with frm|intros v]. apply frm_try; [auto with frm|].
  intros e k E st D. destruct (is_lisp_exn e); inversion E. subst k. clear E.
  match goal with |- sdom (snd (?m st)) /\ _ => assert (F : frm s m) by fauto; destruct (F st D) as (D1&W1&_) end.
  split; [exact D1|]. split; [exact W1|]. unfold bind, reads. destruct (ptr_str q st); try reflexivity.
  unfold throw_scope, bind, reads, throw, lift. destruct (scope_exn _ t st); reflexivity.
Qed.
Lemma frm_eval_args : forall sp ps s, frm s (eval_args Q sp ps s).
Proof. induction ps; intros; cbn [eval_args]; fauto. Qed.
Lemma frm_replace_formals : forall fs ac b s, frm s (replace_formals Q fs ac b s).
Proof. induction fs; intros; cbn [replace_formals]; fauto. Qed.
Local Hint Resolve frm_resolve_elems frm_head_function frm_eval_args frm_replace_formals : frm.
Lemma frm_replace_formal_arguments : forall fs ac b s, frm s (replace_formal_arguments Q fs ac b s).
Proof. intros. unfold replace_formal_arguments. fauto. Qed.
Lemma frm_replace_symbol : forall s sy v e m, frm s (replace_symbol Q sy v e m).
Proof. induction e; intros; cbn [replace_symbol]; fauto. Qed.
Lemma frm_set_token : forall s t, frm s (mod_scope s (set_token t)).
Proof. intros. fself. Qed.
Lemma frm_set_inret : forall s t, frm s (mod_scope s (set_inret t)).
Proof. intros. fself. Qed.
Lemma frm_set_ineval : forall s t, frm s (mod_scope s (set_ineval t)).
Proof. intros. fself. Qed.
Lemma frm_set_module : forall s t, frm s (mod_scope s (set_module t)).
Proof. intros. fself. Qed.
Lemma frm_set_tracing : forall s t, frm s (mod_scope s (set_tracing t)).
Proof. intros. fself. Qed.
Lemma frm_set_tokens : forall s t, frm s (mod_scope s (set_tokens t)).
Proof. intros. fself. Qed.
Lemma frm_set_userdata : forall s t, frm s (mod_scope s (set_userdata t)).
Proof. intros. fself. Qed.
Lemma frm_set_userdoc : forall s t, frm s (mod_scope s (set_userdoc t)).
Proof. intros. fself. Qed.
Local Hint Resolve frm_replace_formal_arguments frm_replace_symbol frm_set_token frm_set_inret frm_set_ineval
  frm_set_module frm_set_tracing frm_set_tokens frm_set_userdata frm_set_userdoc : frm.
Lemma frm_eval_list : forall h t s, frm s (eval_list Q h t s).
Proof. intros. unfold eval_list. fauto. Qed.
Local Hint Resolve frm_eval_list : frm.
Lemma frm_eval_ast : forall p s, frm s (eval_ast Q p s).
Proof. intros. unfold eval_ast. fauto. Qed.
Lemma frm_expand_loop : forall p s, frm s (expand_loop Q p s).
Proof. intros. unfold expand_loop. fauto. Qed.
Lemma frm_convert_list : forall s p, frm s (convert_list p).
Proof. intros. unfold convert_list. fauto. Qed.
Local Hint Resolve frm_convert_list : frm.
Lemma frm_expand_elems : forall ps s, frm s (expand_elems Q ps s).
Proof. induction ps; intros; cbn [expand_elems]; fauto. Qed.
Local Hint Resolve frm_expand_elems : frm.
Lemma frm_expand_once : forall p s, frm s (expand_once Q p s).
Proof. intros. unfold expand_once. fauto. Qed.
Lemma frm_eval_arg_if_needed : forall p s, frm s (eval_arg_if_needed Q p s).
Proof. intros. unfold eval_arg_if_needed. fauto. Qed.
Local Hint Resolve frm_eval_arg_if_needed : frm.
Lemma frm_def_helper : forall n t a s, frm s (def_helper Q n t a s).
Proof. intros. unfold def_helper. fauto. Qed.
Lemma frm_import_one : forall p s r, frm s (import_one Q p s r).
Proof.
  intros. unfold import_one. do 4 (apply frm_bind; [auto with frm|intro]). destruct a2 as [name found].
  apply frm_bind; [fauto|intro code]. destruct code as [|c0 code]; [auto with frm|].
  apply frm_enter. intros g i.
  apply roc_bind; [apply frmx_frm; auto with frm|intro res].
  apply roc_bind; [apply frmx_frm; auto with frm|intro mp].
  apply roc_bind; [apply frmx_frm; auto with frm|intro ms].
  apply roc_bind; [apply frmx_frm; auto with frm|intro o].
  apply roc_bind; [apply frmx_frm; auto with frm|intro np].
  apply roc_bind; [apply frmx_frm; auto with frm|intro].
  apply roc_end.
Qed.
Local Hint Resolve frm_def_helper frm_import_one : frm.
Lemma frm_import_loop : forall ps s r, frm s (import_loop Q ps s r).
Proof. induction ps; intros; cbn [import_loop]; fauto. Qed.
Lemma frm_copy_ptr : forall s p, frm s (copy_ptr p).
Proof. intros. unfold copy_ptr. fauto. Qed.
Local Hint Resolve frm_import_loop frm_copy_ptr : frm.
Lemma frm_map_loop : forall f es s, frm s (map_loop Q f es s).
Proof. induction es; intros; cbn [map_loop]; fauto. Qed.
Lemma frm_reduce_loop : forall f es acc s, frm s (reduce_loop Q f es acc s).
Proof. induction es; intros; cbn [reduce_loop]; fauto. Qed.
Lemma frm_bool_loop : forall op args s acc, frm s (bool_loop Q op args s acc).
Proof. induction args; intros; cbn [bool_loop]; fauto. Qed.
Lemma frm_run_setter : forall s lv p, frm s (run_setter lv p).
Proof. intros. unfold run_setter. fauto. Qed.
Lemma frm_quasi_items : forall es s, frm s (quasi_items Q es s).
Proof. induction es; intros; cbn [quasi_items]; fauto. Qed.
Local Hint Resolve frm_map_loop frm_reduce_loop frm_bool_loop frm_run_setter frm_quasi_items : frm.
Lemma frm_quasi : forall es s, frm s (quasi Q es s).
Proof. intros. unfold quasi. fauto. Qed.
Lemma frm_while_loop : forall c b s r, frm s (while_loop Q c b s r).
Proof. intros. unfold while_loop. fauto. Qed.
Lemma frm_do_loop : forall a s r, frm s (do_loop Q a s r).
Proof. induction a; intros; cbn [do_loop]; fauto. Qed.
Lemma frm_nil_ptrs : forall s n, frm s (nil_ptrs n).
Proof. induction n; cbn [nil_ptrs]; fauto. Qed.
Lemma frm_bind_formals : forall s f a c, frm s (bind_formals f a c).
Proof. induction f; intros; cbn [bind_formals]; fauto. Qed.
Local Hint Resolve frm_do_loop frm_nil_ptrs frm_bind_formals : frm.
Lemma frm_call_closure : forall n m fa ds a ls, frm ls (call_closure Q n m fa ds a ls).
Proof.
  intros. unfold call_closure. apply frm_enter. intros g c.
  do 3 (apply roc_bind; [apply frmx_frm; fauto|intro]).
  apply roc_bind; [apply frmx_frm; auto with frm|intro fill]. cbv zeta.
  do 3 (apply roc_bind; [apply frmx_frm; fauto|intro]).
  apply roc_bind; [apply frmx_frm; fauto|intro].
  apply roc_bind; [apply frmx_mod|intro].
  apply roc_bind; [apply frmx_frm; fauto|intro].
  apply roc_bind; [apply frmx_mod|intro].
  apply roc_bind; [apply frmx_frm; fauto|intro body].
  apply roc_bind; [|intro; apply roc_end]. apply frmx_frm. apply frm_try; [auto with frm|].
  assert (N : forall v e st, sdom st -> let k := (r_dbg Q v ;; throw e : M result) in
            sdom (snd (k st)) /\ kept (K_of weak_same c) st (snd (k st)) /\ is_val (fst (k st)) = false).
  { intros v e st D k. destruct (frm_bind c _ _ (r_dbg Q v) (fun _ => throw e : M result) (fr_dbg _ HQ _ _) (fun _ => frm_throw _ _ _) st D) as (A1 & A2 & _).
    split; [exact A1|]. split; [exact A2|]. unfold k, bind. destruct (r_dbg Q v st) as [[] ?]; reflexivity. }
  intros e k E. destruct e; inversion E; intros; apply N; assumption.
Qed.
Lemma frm_update_doc : forall a s, frm s (update_doc a s).
Proof. intros. unfold update_doc. fauto. Qed.
Lemma frm_global_function : forall s g n, frm s (global_function g n).
Proof. intros. unfold global_function. fauto. Qed.
Local Hint Resolve frm_call_closure frm_update_doc frm_global_function : frm.
Lemma frm_defn_helper : forall n a s, frm s (defn_helper Q n a s).
Proof. intros. unfold defn_helper. fauto. Qed.
Lemma frm_b_rval : forall a s, frm s (b_rval Q a s).
Proof.
  intros. unfold b_rval. apply frm_bind; [auto with frm|intros _]. apply frm_region. intro sc.
  do 2 (apply region_bind; [auto with frm|intro]). apply region_end. auto with frm.
Qed.
Lemma frm_b_setf : forall a s, frm s (b_setf Q a s).
Proof.
  intros. unfold b_setf. apply frm_bind; [auto with frm|intros _]. apply frm_region. intro sc.
  do 2 (apply region_bind; [auto with frm|intro]). apply region_end. fauto.
Qed.
Lemma frm_b_delvar : forall a s, frm s (b_delvar a s).
Proof.
  intros. unfold b_delvar. apply frm_wrap1. intro v. apply frm_bind; [auto with frm|intro n].
  apply frm_bind; [auto with frm|intro r]. apply frm_bind; [|auto with frm]. fself.
Qed.
Local Hint Resolve frm_defn_helper frm_b_rval frm_b_setf frm_b_delvar : frm.
Lemma frm_call_builtin : forall b a s, frm s (call_builtin Q b a s).
Proof.
  intros b a s. destruct b; cbn [call_builtin];
    try solve [auto 3 with frm];
    match goal with |- frm _ (?f _ _ _) => unfold f | |- frm _ (?f _ _) => unfold f end; fauto;
    try (first [apply frm_wrap0 | apply frm_wrap1]; fauto).
Qed.
Local Hint Resolve frm_call_builtin : frm.
Lemma frm_call : forall f a s, frm s (call Q f a s).
Proof. intros. unfold call. fauto. Qed.
Lemma frm_load_tree : forall s t, frm s (load_tree t).
Proof.
  intro s. fix IH 1. intros [tk|n|ts]; cbn [load_tree]; [fauto|fauto|].
  apply frm_bind; [|auto with frm].
  induction ts as [|t ts IHts]; [auto with frm|].
  apply frm_bind; [apply IH|intro p]. apply frm_bind; [apply IHts|intros ps]. auto with frm.
Qed.
Local Hint Resolve frm_load_tree : frm.
Lemma frm_lisp_eval : forall t o c s m, frm s (lisp_eval Q t o c s m).
Proof. intros. unfold lisp_eval. fauto. Qed.
Lemma frm_no_debugger : forall e s, frm s (no_debugger e).
Proof. intros []; intros; cbn [no_debugger]; auto with frm. Qed.
Lemma frm_step : frm_recs (step Q).
Proof.
  constructor; intros; cbn [step step_with r_eval r_call r_expand r_expand1 r_replace r_quasi r_while r_script r_dbg].
  - apply frm_eval_ast. - apply frm_call. - apply frm_expand_loop. - apply frm_expand_once.
  - apply frm_replace_symbol. - apply frm_quasi. - apply frm_while_loop. - apply frm_lisp_eval. - apply frm_no_debugger.
Qed.
End Step.

Theorem frm_run : forall n, frm_recs (run n).
Proof.
  induction n as [|n IH]; [|apply frm_step; exact IH].
  constructor; intros; first [apply frm_no_debugger|apply frm_lift].
Qed.

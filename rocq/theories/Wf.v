(** Well-formed values and states: every address that occurs is allocated, type tags agree with
    the values, integers have 32 bits, scopes point to older scopes.  Every run keeps them
    well-formed, so no run uses an unknown address or a cyclic chain of scopes. *)
Require Import String Ascii List ZArith Bool Lia.
Require Import PArith FMapPositive.
From Verif Require Import Base CppString Num Token Tokenizer Parser Value State Show ScopeOps Builtins Table Eval LispTop FrameProofs.
Import ListNotations.

(** Scopes, vectors and dictionaries set aside: nothing else refers to them, except that scopes
    are linked to the scopes they were called from. *)
Class Priv := { privs : sid -> Prop; privv : loc -> Prop; privd : loc -> Prop }.
Definition vec_any (w : state) (l : loc) : Prop := PositiveMap.find l (st_vecs w) <> None.
Definition dict_any (w : state) (l : loc) : Prop := PositiveMap.find l (st_dicts w) <> None.
Definition scope_any (w : state) (s : sid) : Prop := PositiveMap.find s (st_scopes w) <> None.
Definition vec_in {T : Priv} (w : state) (l : loc) : Prop := vec_any w l /\ ~ privv l.
Definition dict_in {T : Priv} (w : state) (l : loc) : Prop := dict_any w l /\ ~ privd l.
Definition scope_in {T : Priv} (w : state) (s : sid) : Prop := scope_any w s /\ ~ privs s.

(** The scopes, vectors and dictionaries of [w] are still there in [w']; the global scope of a scope
    never changes; what is set aside has kept its contents. *)
Record ext {T : Priv} (w w' : state) : Prop := {
  ext_vec_any : forall l, vec_any w l -> vec_any w' l;
  ext_dict_any : forall l, dict_any w l -> dict_any w' l;
  ext_global : forall s sc, PositiveMap.find s (st_scopes w) = Some sc ->
    exists sc', PositiveMap.find s (st_scopes w') = Some sc' /\ s_global sc' = s_global sc /\ (privs s -> s_vars sc' = s_vars sc);
  ext_privv : forall l, privv l -> PositiveMap.find l (st_vecs w') = PositiveMap.find l (st_vecs w);
  ext_privd : forall l, privd l -> PositiveMap.find l (st_dicts w') = PositiveMap.find l (st_dicts w);
  ext_nsid : (st_nsid w <= st_nsid w')%positive }.
Lemma ext_refl {T : Priv} : forall w, ext w w.
Proof. constructor; eauto; lia. Qed.
Lemma ext_trans {T : Priv} : forall a b c, ext a b -> ext b c -> ext a c.
Proof.
  intros a b c [A1 A2 A3 A4 A5 A6] [B1 B2 B3 B4 B5 B6]. constructor; auto; [| | |lia].
  - intros s sc F. destruct (A3 s sc F) as (x & F1 & G1 & E1). destruct (B3 s x F1) as (y & F2 & G2 & E2).
    exists y. split; [exact F2|split; [congruence|]]. intro P. rewrite (E2 P). exact (E1 P).
  - intros l P. rewrite (B4 l P). exact (A4 l P).
  - intros l P. rewrite (B5 l P). exact (A5 l P).
Qed.
Lemma ext_any {T : Priv} : forall w w', ext w w' -> forall s, scope_any w s -> scope_any w' s.
Proof.
  intros w w' E s A. unfold scope_any in *. destruct (PositiveMap.find s (st_scopes w)) as [sc|] eqn:F; [|congruence].
  destruct (ext_global _ _ E s sc F) as (x & F1 & _). congruence.
Qed.
Lemma ext_scope {T : Priv} : forall w w', ext w w' -> forall s, scope_in w s -> scope_in w' s.
Proof. intros w w' E s [A B]. split; [apply (ext_any _ _ E), A|exact B]. Qed.
Lemma ext_vec {T : Priv} : forall w w', ext w w' -> forall l, vec_in w l -> vec_in w' l.
Proof. intros w w' E l [A B]. split; [apply (ext_vec_any _ _ E), A|exact B]. Qed.
Lemma ext_dict {T : Priv} : forall w w', ext w w' -> forall l, dict_in w l -> dict_in w' l.
Proof. intros w w' E l [A B]. split; [apply (ext_dict_any _ _ E), A|exact B]. Qed.
Lemma in_any {T : Priv} : forall w s, scope_in w s -> scope_any w s.
Proof. intros w s [A _]. exact A. Qed.

(** The object a type tag allows. *)
Definition tag_ok (t : ltype) (o : obj) : Prop :=
  match t, o with
  | _, OVar _ => False
  | TInt, OInt _ | TBool, OBool _ | TDouble, ODouble _ | TString, OString _ | TSym, OString _
  | TList, OList _ | TFun, OFun _ | TNative, ODict _ | TLValue, OLValue _ | TError, OString _ => True
  | TNil, _ => True
  | TUndef, (OUndef | ODict _ | OLValue _ | OScope _ | OMacro _ _ _) => True
  | _, _ => False
  end.

Definition all {A} (P : A -> Prop) : list A -> Prop :=
  fix go l := match l with [] => True | x :: l' => P x /\ go l' end.

Fixpoint ok_obj {T : Priv} (w : state) (o : obj) : Prop :=
  match o with
  | OInt z => in_int z = true
  | OList l => vec_in w l
  | ODict l => dict_in w l
  | OFun f => ok_fn w f
  | OLValue lv => ok_lval w lv
  | OScope s => scope_in w s
  | OMacro _ fs bs => all (ok_ptr w) fs /\ all (ok_ptr w) bs
  | OVar v => ok_var w v
  | _ => True
  end
with ok_var {T : Priv} (w : state) (v : variant) : Prop :=
  match v with
  | MkVar t None _ _ => t = TNil \/ t = TUndef
  | MkVar t (Some o) _ _ => tag_ok t o /\ ok_obj w o
  end
with ok_ptr {T : Priv} (w : state) (p : ptr) : Prop :=
  match p with PNull => True | P _ o => ok_obj w o end
with ok_fn {T : Priv} (w : state) (f : fnval) : Prop :=
  match f with MkFn c _ _ _ _ _ _ => ok_code w c end
with ok_code {T : Priv} (w : state) (c : code) : Prop :=
  match c with
  | CBuiltin _ => True
  | CClosure _ _ args s => all (ok_ptr w) args /\ scope_in w s
  end
with ok_lval {T : Priv} (w : state) (lv : lval) : Prop :=
  match lv with LvFirst p | LvLast p => ok_ptr w p | LvNth p _ => ok_ptr w p end.

Lemma ok_obj_mono {T : Priv} : forall w w', ext w w' -> forall o, ok_obj w o -> ok_obj w' o
with ok_var_mono {T : Priv} : forall w w', ext w w' -> forall o, ok_var w o -> ok_var w' o
with ok_ptr_mono {T : Priv} : forall w w', ext w w' -> forall o, ok_ptr w o -> ok_ptr w' o
with ok_fn_mono {T : Priv} : forall w w', ext w w' -> forall o, ok_fn w o -> ok_fn w' o
with ok_code_mono {T : Priv} : forall w w', ext w w' -> forall o, ok_code w o -> ok_code w' o
with ok_lval_mono {T : Priv} : forall w w', ext w w' -> forall o, ok_lval w o -> ok_lval w' o.
Proof.
  - intros w w' E o. destruct o as [ | | | | |l|l|f|lv|s|r fs bs|v]; cbn [ok_obj]; auto.
    + apply (ext_vec _ _ E). + apply (ext_dict _ _ E). + apply ok_fn_mono; exact E. + apply ok_lval_mono; exact E. + apply (ext_scope _ _ E).


    + intros [H1 H2]. split; revert H1 H2.
      * intros H1 _. revert H1. revert fs. fix IH 1. intros [|p fs]; cbn; [auto|]. intros [H1 H2].
        split; [|apply IH; exact H2]. exact (ok_ptr_mono T w w' E p H1).
      * intros _ H1. revert bs H1. fix IH 1. intros [|p bs]; cbn; [auto|]. intros [H1 H2].
        split; [|apply IH; exact H2]. exact (ok_ptr_mono T w w' E p H1).
    + apply ok_var_mono; exact E.
  - intros w w' E v. destruct v as [t [o|] u tk]; cbn [ok_var]; auto. intros [H1 H2]. split; [exact H1|].
    exact (ok_obj_mono T w w' E o H2).
  - intros w w' E p. destruct p as [|i o]; cbn [ok_ptr]; auto. apply ok_obj_mono; exact E.
  - intros w w' E f. destruct f; cbn [ok_fn]. apply ok_code_mono; exact E.
  - intros w w' E c. destruct c as [|n m args s]; cbn [ok_code]; auto. intros [H1 H2]. split; [|apply (ext_scope _ _ E); exact H2].
    revert args H1. fix IH 1. intros [|p fs]; cbn; [auto|]. intros [H1 H3].
    split; [|apply IH; exact H3]. exact (ok_ptr_mono T w w' E p H1).
  - intros w w' E lv. destruct lv; cbn [ok_lval]; apply ok_ptr_mono; exact E.
Qed.

(** ** States *)
Definition vars_ok {T : Priv} (w : state) (vs : list (str * ptr)) : Prop := all (fun kv => ok_ptr w (snd kv)) vs.
Definition dict_ok {T : Priv} (w : state) (d : dictv) : Prop :=
  all (fun kv => ok_var w (fst kv) /\ match snd kv with Some o => ok_obj w o | None => True end) d.

(** Names in strictly increasing order. *)
Fixpoint keys_sorted (vs : list (str * ptr)) : Prop :=
  match vs with
  | [] => True
  | (k, _) :: vs' => all (fun kv => str_cmp k (fst kv) = Lt) vs' /\ keys_sorted vs'
  end.

(** The links of any scope. *)
Record ok_links (w : state) (s : sid) (sc : scope) : Prop := {
  ol_prev : forall c, s_prev sc = Some c -> scope_any w c /\ (c < s)%positive;
  ol_next : forall c, s_next sc = Some c -> scope_any w c }.
Record ok_scope {T : Priv} (w : state) (s : sid) (sc : scope) : Prop := {
  os_vars : vars_ok w (s_vars sc);
  os_sorted : keys_sorted (s_vars sc);
  os_global : scope_in w (s_global sc);
  os_closure : forall c, s_closure sc = Some c -> scope_in w c /\ (c < s)%positive;
  os_links : ok_links w s sc }.

Record ok {T : Priv} (st : state) : Prop := {
  ok_vecs : forall l es, PositiveMap.find l (st_vecs st) = Some es -> (l < st_nloc st)%positive /\ (~ privv l -> all (ok_ptr st) es);
  ok_dicts : forall l d, PositiveMap.find l (st_dicts st) = Some d -> (l < st_nloc st)%positive /\ (~ privd l -> dict_ok st d);
  ok_scopes : forall s sc, PositiveMap.find s (st_scopes st) = Some sc -> (s < st_nsid st)%positive /\ ok_links st s sc /\ (~ privs s -> ok_scope st s sc);
  ok_privs : forall s, privs s -> (s < st_nsid st)%positive;
  ok_privv : forall l, privv l -> (l < st_nloc st)%positive;
  ok_privd : forall l, privd l -> (l < st_nloc st)%positive }.

Lemma all_impl : forall A (P Q : A -> Prop) l, (forall x, P x -> Q x) -> all P l -> all Q l.
Proof. intros A P Q l H. induction l; cbn; intuition. Qed.
Lemma all_app : forall A (P : A -> Prop) l m, all P (l ++ m) <-> all P l /\ all P m.
Proof. intros A P l m. induction l; cbn; tauto. Qed.
Lemma all_Forall : forall A (P : A -> Prop) l, all P l <-> Forall P l.
Proof.
  intros A P l. induction l as [|x l IH]; cbn; [split; auto|]. rewrite IH.
  split; [intros []; auto|intro H; inversion H; auto].
Qed.
Lemma all_in : forall A (P : A -> Prop) l, all P l <-> forall x, In x l -> P x.
Proof. intros. rewrite all_Forall. apply Forall_forall. Qed.
Lemma all_rev : forall A (P : A -> Prop) l, all P l -> all P (rev l).
Proof. intros A P l. rewrite !all_in. intros H x I. apply H. apply in_rev. exact I. Qed.
Lemma all_firstn : forall A (P : A -> Prop) n l, all P l -> all P (firstn n l).
Proof. intros A P n l H. rewrite <- (firstn_skipn n l) in H. apply all_app in H. tauto. Qed.
Lemma all_skipn : forall A (P : A -> Prop) n l, all P l -> all P (skipn n l).
Proof. intros A P n l H. rewrite <- (firstn_skipn n l) in H. apply all_app in H. tauto. Qed.
Lemma all_tl : forall A (P : A -> Prop) l, all P l -> all P (tl l).
Proof. intros A P [|x l]; cbn; tauto. Qed.
Lemma all_nth : forall A (P : A -> Prop) l n x, all P l -> nth_error l n = Some x -> P x.
Proof. intros A P l n x H E. rewrite all_in in H. apply H. eapply nth_error_In; eauto. Qed.

Lemma ptrs_mono {T : Priv} : forall w w', ext w w' -> forall l, all (ok_ptr w) l -> all (ok_ptr w') l.
Proof. intros w w' E l. apply all_impl. apply ok_ptr_mono. exact E. Qed.
Lemma vars_mono {T : Priv} : forall w w', ext w w' -> forall l, vars_ok w l -> vars_ok w' l.
Proof. intros w w' E l. apply all_impl. intro. apply ok_ptr_mono. exact E. Qed.
Lemma dict_mono {T : Priv} : forall w w', ext w w' -> forall l, dict_ok w l -> dict_ok w' l.
Proof.
  intros w w' E l. apply all_impl. intros [k [o|]]; cbn; intros [H1 H2]; split; auto.
  - eapply ok_var_mono; eauto. - eapply ok_obj_mono; eauto. - eapply ok_var_mono; eauto.
Qed.
Lemma ok_links_mono {T : Priv} : forall w w', ext w w' -> forall s sc, ok_links w s sc -> ok_links w' s sc.
Proof.
  intros w w' E s sc [B C]. constructor.
  - intros c Ec. destruct (B c Ec). split; auto. apply (ext_any _ _ E); auto.
  - intros c Ec. apply (ext_any _ _ E). eauto.
Qed.
Lemma ok_scope_mono {T : Priv} : forall w w', ext w w' -> forall s sc, ok_scope w s sc -> ok_scope w' s sc.
Proof.
  intros w w' E s sc [A B G C D]. constructor; auto.
  - eapply vars_mono; eauto.
  - apply (ext_scope _ _ E), G.
  - intros c Ec. destruct (C c Ec). split; auto. apply (ext_scope _ _ E); auto.
  - eapply ok_links_mono; eauto.
Qed.
Lemma ok_both_mono {T : Priv} : forall w w', ext w w' -> forall s sc, ok_links w s sc /\ (~ privs s -> ok_scope w s sc) -> ok_links w' s sc /\ (~ privs s -> ok_scope w' s sc).
Proof. intros w w' E s sc [A B]. split; [eapply ok_links_mono; eauto|]. intro N. eapply ok_scope_mono; eauto. Qed.
Lemma ok_vec_mono {T : Priv} : forall w w', ext w w' -> forall l es, (~ privv l -> all (ok_ptr w) es) -> ~ privv l -> all (ok_ptr w') es.
Proof. intros w w' E l es A N. eapply ptrs_mono; eauto. Qed.
Lemma ok_dict_mono {T : Priv} : forall w w', ext w w' -> forall l d, (~ privd l -> dict_ok w d) -> ~ privd l -> dict_ok w' d.
Proof. intros w w' E l d A N. eapply dict_mono; eauto. Qed.

(** ** Triples *)
Definition okub (u : ub) : Prop := u <> UBBadPtr /\ u <> UBScopeChain /\ u <> UBTag.
Definition oks {A} (o : out A) (Q : A -> Prop) : Prop :=
  match o with Val a => Q a | Undef u => okub u | _ => True end.
Definition okm {T : Priv} {A} (w : state) (m : M A) (Q : state -> A -> Prop) : Prop :=
  forall st, ext w st -> ok st ->
    ext st (snd (m st)) /\ ok (snd (m st)) /\ oks (fst (m st)) (Q (snd (m st))).

Lemma oks_bind : forall A B (m : out A) (f : A -> out B) Q1 Q2,
  oks m Q1 -> (forall a, Q1 a -> oks (f a) Q2) -> oks (obind m f) Q2.
Proof. intros A B m f Q1 Q2 H1 H2. destruct m; cbn in *; auto. Qed.
Lemma oks_weak : forall A (m : out A) (Q1 Q2 : A -> Prop), oks m Q1 -> (forall a, Q1 a -> Q2 a) -> oks m Q2.
Proof. intros A m Q1 Q2 H1 H2. destruct m; cbn in *; auto. Qed.

Lemma okm_weak {T : Priv} : forall A w (m : M A) (Q1 Q2 : state -> A -> Prop),
  okm w m Q1 -> (forall w' a, ext w w' -> Q1 w' a -> Q2 w' a) -> okm w m Q2.
Proof.
  intros A w m Q1 Q2 H1 H2 st E K. destruct (H1 st E K) as [E1 [K1 R]]. split; [exact E1|split; [exact K1|]].
  destruct (fst (m st)); cbn in *; auto. apply H2; auto. eapply ext_trans; eauto.
Qed.
Lemma okm_bind {T : Priv} : forall A B w (m : M A) (f : A -> M B) Q1 Q2,
  okm w m Q1 -> (forall w' a, ext w w' -> Q1 w' a -> okm w' (f a) Q2) -> okm w (bind m f) Q2.
Proof.
  intros A B w m f Q1 Q2 H1 H2 st E K. unfold bind. destruct (H1 st E K) as [E1 [K1 R]].
  destruct (m st) as [o st1]. cbn [fst snd] in *. destruct o as [a|e|u|x|]; cbn [fst snd oks] in *; auto.
  assert (E2 : ext w st1) by (eapply ext_trans; eauto).
  destruct (H2 st1 a E2 R st1 (ext_refl _) K1) as [E3 [K3 R3]]. split; [eapply ext_trans; eauto|auto].
Qed.
Lemma okm_ret {T : Priv} : forall A w (a : A) (Q : state -> A -> Prop), (forall w', ext w w' -> Q w' a) -> okm w (ret a) Q.
Proof. intros A w a Q H st E K. cbn [ret fst snd oks]. split; [apply ext_refl|auto]. Qed.
Lemma okm_reads {T : Priv} : forall A w (f : state -> out A) (Q : state -> A -> Prop),
  (forall st, ext w st -> ok st -> oks (f st) (Q st)) -> okm w (reads f) Q.
Proof. intros A w f Q H st E K. cbn [reads fst snd]. split; [apply ext_refl|auto]. Qed.
Lemma okm_lift {T : Priv} : forall A w (o : out A) (Q : state -> A -> Prop),
  (forall st, ext w st -> oks o (Q st)) -> okm w (lift o) Q.
Proof. intros A w f Q H st E K. cbn [lift fst snd]. split; [apply ext_refl|auto]. Qed.
Lemma okm_throw {T : Priv} : forall A w e (Q : state -> A -> Prop), okm w (throw e) Q.
Proof. intros. apply okm_lift. intros. exact I. Qed.
Lemma okm_unmod {T : Priv} : forall A w e (Q : state -> A -> Prop), okm w (unmod e) Q.
Proof. intros. apply okm_lift. intros. exact I. Qed.
Lemma okm_undef {T : Priv} : forall A w u (Q : state -> A -> Prop), okub u -> okm w (undef u) Q.
Proof. intros. apply okm_lift. intros. assumption. Qed.
Lemma okm_try {T : Priv} : forall A w (m : M A) h Q,
  okm w m Q -> (forall w' e k, ext w w' -> h e = Some k -> okm w' k Q) -> okm w (try_catch m h) Q.
Proof.
  intros A w m h Q H1 H2 st E K. unfold try_catch. destruct (H1 st E K) as [E1 [K1 R]].
  destruct (m st) as [o st1]. cbn [fst snd] in *. destruct o as [a|e|u|x|]; cbn [fst snd oks] in *; auto.
  destruct (h e) as [k|] eqn:Ek; cbn [fst snd oks]; auto.
  assert (E2 : ext w st1) by (eapply ext_trans; eauto).
  destruct (H2 st1 e k E2 Ek st1 (ext_refl _) K1) as [E3 [K3 R3]]. split; [eapply ext_trans; eauto|auto].
Qed.

(** ** The primitives *)
Lemma ext_same {T : Priv} : forall w w', st_vecs w' = st_vecs w -> st_dicts w' = st_dicts w -> st_scopes w' = st_scopes w ->
  (st_nsid w <= st_nsid w')%positive -> ext w w'.
Proof.
  intros w w' E1 E2 E3 E4. constructor; auto; unfold vec_any, dict_any; try (intro; congruence). rewrite E3. eauto.
Qed.
Lemma ok_same {T : Priv} : forall w w', st_vecs w' = st_vecs w -> st_dicts w' = st_dicts w -> st_scopes w' = st_scopes w ->
  st_nsid w' = st_nsid w -> st_nloc w' = st_nloc w -> ok w -> ok w'.
Proof.
  intros w w' E1 E2 E3 E4 E5 K.
  assert (E : ext w w') by (apply ext_same; auto; rewrite E4; lia).
  constructor; rewrite ?E1, ?E2, ?E3, ?E4, ?E5; [| | |apply K..].
  - intros l es H. apply K in H. destruct H. split; auto. eapply ok_vec_mono; eauto.
  - intros l es H. apply K in H. destruct H. split; auto. eapply ok_dict_mono; eauto.
  - intros l es H. apply K in H. destruct H. split; auto. eapply ok_both_mono; eauto.
Qed.

Lemma okm_new_ptr {T : Priv} : forall w o, ok_obj w o -> okm w (new_ptr o) ok_ptr.
Proof.
  intros w o Ho st E K. cbn [new_ptr fst snd oks]. 
  assert (E1 : ext st (with_nid (Pos.succ (st_nid st)) st)) by (apply ext_same; auto; cbn; lia).
  split; [exact E1|split].
  - eapply ok_same; [..|exact K]; reflexivity.
  - cbn [ok_ptr]. eapply ok_obj_mono; [|exact Ho]. eapply ext_trans; eauto.
Qed.

Lemma find_add : forall A (m : PositiveMap.t A) k k' v,
  PositiveMap.find k' (PositiveMap.add k v m) = if Pos.eq_dec k k' then Some v else PositiveMap.find k' m.
Proof.
  intros. destruct (Pos.eq_dec k k') as [->|N]; [apply PositiveMap.gss|apply PositiveMap.gso; congruence].
Qed.

(** How the pieces of a state carry over. *)
Ltac keep K :=
  let H := fresh in intros ? ? H; apply K in H; destruct H; split; [lia|]; first [eapply ok_vec_mono|eapply ok_dict_mono|eapply ok_both_mono]; eassumption.
Ltac keepp K := let P := fresh in intros ? P; apply K in P; lia.
Lemma okm_alloc_vec {T : Priv} : forall w es, all (ok_ptr w) es -> okm w (alloc_vec es) vec_in.
Proof.
  intros w es He st E K. cbn [alloc_vec fst snd oks].
  set (st' := with_nloc _ _).
  assert (NP : ~ privv (st_nloc st)) by (intro P; apply K in P; lia).
  assert (E1 : ext st st').
  { constructor; cbn; eauto; [| |lia].
    - intros l. unfold vec_any. cbn. rewrite find_add. destruct Pos.eq_dec; congruence.
    - intros l P. rewrite find_add. destruct Pos.eq_dec as [<-|N]; [contradiction|reflexivity]. }
  split; [exact E1|split].
  - constructor; cbn; [|keep K|keep K|keepp K..].
    intros l es'. rewrite find_add. destruct Pos.eq_dec as [<-|N].
    + intros [= <-]. split; [lia|]. intros _. eapply ptrs_mono; [|exact He]. eapply ext_trans; eauto.
    + revert l es' N. intros l es' _. revert l es'. keep K.
  - split; [|exact NP]. unfold vec_any. cbn. rewrite PositiveMap.gss. congruence.
Qed.
Lemma okm_alloc_dict {T : Priv} : forall w d, dict_ok w d -> okm w (alloc_dict d) dict_in.
Proof.
  intros w es He st E K. cbn [alloc_dict fst snd oks].
  set (st' := with_nloc _ _).
  assert (NP : ~ privd (st_nloc st)) by (intro P; apply K in P; lia).
  assert (E1 : ext st st').
  { constructor; cbn; eauto; [| |lia].
    - intros l. unfold dict_any. cbn. rewrite find_add. destruct Pos.eq_dec; congruence.
    - intros l P. rewrite find_add. destruct Pos.eq_dec as [<-|N]; [contradiction|reflexivity]. }
  split; [exact E1|split].
  - constructor; cbn; [keep K| |keep K|keepp K..].
    intros l es'. rewrite find_add. destruct Pos.eq_dec as [<-|N].
    + intros [= <-]. split; [lia|]. intros _. eapply dict_mono; [|exact He]. eapply ext_trans; eauto.
    + revert l es' N. intros l es' _. revert l es'. keep K.
  - split; [|exact NP]. unfold dict_any. cbn. rewrite PositiveMap.gss. congruence.
Qed.
Lemma okm_put_vec {T : Priv} : forall w l es, vec_in w l -> all (ok_ptr w) es -> okm w (put_vec l es) (fun _ _ => True).
Proof.
  intros w l es Hl He st E K. cbn [put_vec fst snd oks]. set (st' := with_vecs _ _).
  pose proof (ext_vec _ _ E _ Hl) as [Hl' NP].
  assert (E1 : ext st st').
  { constructor; cbn; eauto; [| |lia].
    - intros l'. unfold vec_any. cbn. rewrite find_add. destruct Pos.eq_dec; congruence.
    - intros l' P. rewrite find_add. destruct Pos.eq_dec as [<-|N]; [contradiction|reflexivity]. }
  split; [exact E1|split; [|exact I]].
  constructor; cbn; [|keep K|keep K|keepp K..].
  intros l' es'. rewrite find_add. destruct Pos.eq_dec as [<-|N].
  - intros [= <-]. unfold vec_any in Hl'. destruct (PositiveMap.find l (st_vecs st)) eqn:F; [|congruence].
    apply K in F. split; [apply F|]. intros _. eapply ptrs_mono; [|exact He]. eapply ext_trans; eauto.
  - revert l' es' N. intros l' es' _. revert l' es'. keep K.
Qed.
Lemma okm_put_dict {T : Priv} : forall w l es, dict_in w l -> dict_ok w es -> okm w (put_dict l es) (fun _ _ => True).
Proof.
  intros w l es Hl He st E K. cbn [put_dict fst snd oks]. set (st' := with_dicts _ _).
  pose proof (ext_dict _ _ E _ Hl) as [Hl' NP].
  assert (E1 : ext st st').
  { constructor; cbn; eauto; [| |lia].
    - intros l'. unfold dict_any. cbn. rewrite find_add. destruct Pos.eq_dec; congruence.
    - intros l' P. rewrite find_add. destruct Pos.eq_dec as [<-|N]; [contradiction|reflexivity]. }
  split; [exact E1|split; [|exact I]].
  constructor; cbn; [keep K| |keep K|keepp K..].
  intros l' es'. rewrite find_add. destruct Pos.eq_dec as [<-|N].
  - intros [= <-]. unfold dict_any in Hl'. destruct (PositiveMap.find l (st_dicts st)) eqn:F; [|congruence].
    apply K in F. split; [apply F|]. intros _. eapply dict_mono; [|exact He]. eapply ext_trans; eauto.
  - revert l' es' N. intros l' es' _. revert l' es'. keep K.
Qed.

(** A new scope is younger than every scope there is. *)
Lemma okm_alloc_scope {T : Priv} : forall w sc,
  (forall s, (forall x, scope_any w x -> (x < s)%positive) -> ok_scope w s sc) ->
  okm w (alloc_scope sc) (fun w' c => scope_in w' c /\ forall x, scope_any w x -> (x < c)%positive).
Proof.
  intros w sc Hs st E K. cbn [alloc_scope fst snd oks]. set (st' := with_nsid _ _).
  assert (Y : forall x, scope_any w x -> (x < st_nsid st)%positive).
  { intros x Hx. apply (ext_any _ _ E) in Hx. unfold scope_any in Hx. destruct (PositiveMap.find x (st_scopes st)) eqn:F; [|congruence].
    apply K in F. apply F. }
  assert (NP : ~ privs (st_nsid st)) by (intro P; apply K in P; lia).
  assert (E1 : ext st st').
  { constructor; cbn; auto; [|lia].
    intros s x F. rewrite find_add. destruct Pos.eq_dec as [<-|N]; [|eauto]. apply K in F. destruct F. lia. }
  assert (O : ok_scope st' (st_nsid st) sc).
  { eapply ok_scope_mono; [|apply Hs; exact Y]. eapply ext_trans; eauto. }
  split; [exact E1|split].
  - constructor; cbn; [keep K|keep K| |keepp K..].
    intros s sc'. rewrite find_add. destruct Pos.eq_dec as [<-|N].
    + intros [= <-]. split; [lia|]. split; [apply O|auto].
    + revert s sc' N. intros s sc' _. revert s sc'. keep K.
  - split; [|exact Y]. split; [|exact NP]. unfold scope_any. cbn. rewrite PositiveMap.gss. congruence.
Qed.
Lemma oks_get_scope {T : Priv} : forall st s, ok st -> scope_in st s -> oks (get_scope s st) (ok_scope st s).
Proof.
  intros st s K [H N]. unfold get_scope. unfold scope_any in H. destruct (PositiveMap.find s (st_scopes st)) eqn:F; [|congruence].
  cbn. apply K in F. apply F. exact N.
Qed.
Lemma oks_get_links {T : Priv} : forall st s, ok st -> scope_any st s -> oks (get_scope s st) (ok_links st s).
Proof.
  intros st s K H. unfold get_scope. unfold scope_any in H. destruct (PositiveMap.find s (st_scopes st)) eqn:F; [|congruence].
  cbn. apply K in F. destruct F as (_ & F & _). exact F.
Qed.
Lemma okm_mod_any {T : Priv} : forall w s f, scope_any w s ->
  (forall sc, s_global (f sc) = s_global sc) ->
  (privs s -> forall sc, s_vars (f sc) = s_vars sc) ->
  (forall w' sc, ext w w' -> ok_links w' s sc -> ok_links w' s (f sc)) ->
  (forall w' sc, ext w w' -> ~ privs s -> ok_scope w' s sc -> ok_scope w' s (f sc)) -> okm w (mod_scope s f) (fun _ _ => True).
Proof.
  intros w s f Hs Hg Hv Hl Hf st E K. unfold mod_scope, bind, reads. assert (Hs' : scope_any st s) by (apply (ext_any _ _ E); exact Hs).
  unfold get_scope. unfold scope_any in Hs'. destruct (PositiveMap.find s (st_scopes st)) as [sc|] eqn:F; [|congruence].
  cbn [put_scope fst snd oks]. set (st' := with_scopes _ _).
  assert (E1 : ext st st').
  { constructor; cbn; auto; [|lia]. intros s' sc' F'. rewrite find_add. destruct Pos.eq_dec as [<-|N]; [|eauto].
    eexists. split; [reflexivity|]. rewrite F in F'. injection F' as <-. split; [apply Hg|]. intro P. apply (Hv P). }
  split; [exact E1|split; [|exact I]].
  constructor; cbn; [keep K|keep K| |keepp K..].
  intros s' sc'. rewrite find_add. destruct Pos.eq_dec as [<-|N].
  - intros [= <-]. apply K in F. destruct F as (F1 & F2 & F3). split; [exact F1|]. split.
    + apply Hl; [eapply ext_trans; eauto|]. eapply ok_links_mono; [exact E1|exact F2].
    + intro N. apply Hf; [eapply ext_trans; eauto|exact N|]. eapply ok_scope_mono; [exact E1|exact (F3 N)].
  - revert s' sc' N. intros s' sc' _. revert s' sc'. keep K.
Qed.
Lemma okm_mod_scope {T : Priv} : forall w s f, scope_in w s ->
  (forall sc, s_global (f sc) = s_global sc /\ s_prev (f sc) = s_prev sc /\ s_next (f sc) = s_next sc) ->
  (forall w' sc, ext w w' -> ok_scope w' s sc -> ok_scope w' s (f sc)) -> okm w (mod_scope s f) (fun _ _ => True).
Proof.
  intros w s f [Hs N] Hg Hf. apply okm_mod_any; auto.
  - intro sc. apply Hg.
  - intro P. contradiction.
  - intros w' sc E [A B]. destruct (Hg sc) as (_ & G2 & G3). constructor; rewrite ?G2, ?G3; auto.
Qed.
Lemma okm_write_out {T : Priv} : forall w t, okm w (write_out t) (fun _ _ => True).
Proof.
  intros w t st E K. cbn [write_out fst snd oks]. split; [apply ext_same; auto; cbn; lia|].
  split; [|exact I]. eapply ok_same; [..|exact K]; reflexivity.
Qed.
Lemma okm_write_file {T : Priv} : forall w n t, okm w (write_file n t) (fun _ _ => True).
Proof.
  intros w n t st E K. cbn [write_file fst snd oks]. split; [apply ext_same; auto; cbn; lia|].
  split; [|exact I]. eapply ok_same; [..|exact K]; reflexivity.
Qed.
Lemma okm_read_line {T : Priv} : forall w, okm w read_line (fun _ _ => True).
Proof.
  intros w st E K. unfold read_line. destruct (st_in st); cbn [fst snd oks]; [split; [apply ext_refl|auto]|].
  split; [apply ext_same; auto; cbn; lia|]. split; [|exact I]. eapply ok_same; [..|exact K]; reflexivity.
Qed.
Lemma okm_dump {T : Priv} : forall w (f : state -> out str), (forall st, ext w st -> ok st -> oks (f st) (fun _ => True)) ->
  okm w (dump_documentation f) (fun w' r => match r with Some v => ok_var w' v | None => True end).
Proof.
  intros w f H st E K. unfold dump_documentation. specialize (H st E K).
  destruct (f st); cbn in *; (split; [apply ext_refl|]); auto.
Qed.

(** Well-formedness, continued: everything that only reads the state. *)
Require Import String Ascii List ZArith Bool Lia.
Require Import PArith FMapPositive.
Require Import ZifyBool.
From Verif Require Import Base CppString Num Token Tokenizer Parser Value State Show ScopeOps Builtins Table Eval LispTop Wf.
Import ListNotations.

Notation tt_ := (fun _ => True).
Create HintDb oks.

Lemma okub_any : forall u, u <> UBBadPtr -> u <> UBScopeChain -> u <> UBTag -> okub u.
Proof. intros. repeat split; auto. Qed.
Ltac ubok := solve [apply okub_any; discriminate].

(** Optional things. *)
Definition oopt {A} (P : state -> A -> Prop) (w : state) (x : option A) : Prop :=
  match x with Some a => P w a | None => True end.

Lemma oopt_mono {T : Priv} : forall A (P : state -> A -> Prop), (forall w w', ext w w' -> forall a, P w a -> P w' a) ->
  forall w w', ext w w' -> forall x, oopt P w x -> oopt P w' x.
Proof. intros A P H w w' E [a|]; cbn; eauto. Qed.

Ltac up E :=
  repeat match goal with
  | H : ok_obj _ _ |- _ => apply (ok_obj_mono _ _ E) in H
  | H : ok_var _ _ |- _ => apply (ok_var_mono _ _ E) in H
  | H : ok_ptr _ _ |- _ => apply (ok_ptr_mono _ _ E) in H
  | H : ok_fn _ _ |- _ => apply (ok_fn_mono _ _ E) in H
  | H : ok_code _ _ |- _ => apply (ok_code_mono _ _ E) in H
  | H : ok_lval _ _ |- _ => apply (ok_lval_mono _ _ E) in H
  | H : all (ok_ptr _) _ |- _ => apply (ptrs_mono _ _ E) in H
  | H : vars_ok _ _ |- _ => apply (vars_mono _ _ E) in H
  | H : dict_ok _ _ |- _ => apply (dict_mono _ _ E) in H
  | H : ok_scope _ _ _ |- _ => apply (ok_scope_mono _ _ E) in H
  | H : vec_in _ _ |- _ => apply (ext_vec _ _ E) in H
  | H : dict_in _ _ |- _ => apply (ext_dict _ _ E) in H
  | H : scope_in _ _ |- _ => apply (ext_scope _ _ E) in H
  | H : scope_any _ _ |- _ => apply (ext_any _ _ E) in H
  | H : ok_links _ _ _ |- _ => apply (ok_links_mono _ _ E) in H
  | H : oopt ok_var _ _ |- _ => apply (oopt_mono _ _ ok_var_mono _ _ E) in H
  | H : oopt ok_ptr _ _ |- _ => apply (oopt_mono _ _ ok_ptr_mono _ _ E) in H
  | H : oopt ok_obj _ _ |- _ => apply (oopt_mono _ _ ok_obj_mono _ _ E) in H
  | H : oopt ok_fn _ _ |- _ => apply (oopt_mono _ _ ok_fn_mono _ _ E) in H
  | H : oopt vec_in _ _ |- _ => apply (oopt_mono _ _ ext_vec _ _ E) in H
  end.
(** ** Functions without state *)
Lemma oks_True : forall A (o : out A) Q, oks o Q -> oks o tt_.
Proof. intros A o Q H. eapply oks_weak; eauto. Qed.

Ltac pstep :=
  match goal with
  | |- oks (Val _) _ => cbn [oks]; try first [exact I | reflexivity]
  | |- oks (Throw _) _ => exact I
  | |- oks (Unmod _) _ => exact I
  | |- oks NoFuel _ => exact I
  | |- oks (Undef _) _ => cbn [oks]; first [ubok | exfalso]
  | |- oks (obind _ _) _ => eapply oks_bind; [solve [eauto with oks] | intros ? ?]
  | |- oks (let x := _ in _) _ => cbv zeta
  | |- oks (match ?x with _ => _ end) _ => destruct x eqn:?
  end.
Ltac pauto := repeat (first [solve [eauto 3 with oks] | pstep]).

Lemma oks_substr : forall s a b, oks (substr s a b) tt_.
Proof. intros. unfold substr. pauto. Qed.
Lemma oks_substr_from : forall s a, oks (substr_from s a) tt_.
Proof. intros. unfold substr_from. pauto. Qed.
Lemma oks_stoi_pos : forall s, oks (stoi_pos s) (fun r => in_int (fst r) = true).
Proof. intros. unfold stoi_pos. pauto. Qed.
#[export] Hint Resolve oks_substr oks_substr_from oks_stoi_pos : oks.
Lemma oks_stoi : forall s, oks (stoi s) tt_.
Proof. intros. unfold stoi. pauto. Qed.
#[export] Hint Resolve oks_stoi : oks.
Lemma oks_rwf : forall a b c, oks (ReplaceInWithFill a b c) tt_.
Proof. intros. unfold ReplaceInWithFill. pauto. Qed.
#[export] Hint Resolve oks_rwf : oks.
Lemma oks_format_round : forall a b c d, oks (format_round a b c d) tt_.
Proof. intros. unfold format_round. pauto. Qed.
#[export] Hint Resolve oks_format_round : oks.
Lemma oks_Format : forall t a, oks (Format t a) tt_.
Proof. intros. unfold Format, Format5. pauto. Qed.
Lemma oks_Trim : forall t, oks (Trim t) tt_.
Proof. intros. unfold Trim. pauto. Qed.
Lemma oks_ToUpper : forall t, oks (ToUpper t) tt_.
Proof. intros. unfold ToUpper. pauto. Qed.
Lemma oks_ToLower : forall t, oks (ToLower t) tt_.
Proof. intros. unfold ToLower. pauto. Qed.
Lemma oks_atoi : forall t, oks (atoi t) (fun z => in_int z = true).
Proof. intros. unfold atoi. pauto; auto. Qed.
Lemma oks_f_to_int : forall t, oks (f_to_int t) (fun z => in_int z = true).
Proof. intros. unfold f_to_int. pauto; auto. Qed.
Lemma oks_stod_pos : forall t, oks (stod_pos t) tt_.
Proof. intros. unfold stod_pos. pauto. Qed.
#[export] Hint Resolve oks_Format oks_Trim oks_ToUpper oks_ToLower oks_atoi oks_f_to_int oks_stod_pos : oks.
Lemma oks_stod : forall t, oks (stod t) tt_.
Proof. intros. unfold stod. pauto. Qed.
#[export] Hint Resolve oks_stod : oks.

(** ** Tokens *)
Definition token_ok (t : token) : Prop :=
  match tk_type t, tk_val t with
  | TkSymbol, TvStr _ => True
  | TkSymbol, _ => False
  | _, TvInt z => in_int z = true
  | _, _ => True
  end.
Lemma oks_int_try : forall t, oks (Int32_TryParse t) (fun r => match r with Some z => in_int z = true | None => True end).
Proof.
  intros. unfold Int32_TryParse. pose proof (oks_stoi_pos t) as H. destruct (stoi_pos t) as [[z p]|e|u|x|]; cbn [oks fst] in *; auto.
  - destruct (p <? length t)%nat; cbn [oks]; auto.
  - destruct e; cbn; auto.
Qed.
Lemma oks_double_try : forall t, oks (Double_TryParse t) tt_.
Proof.
  intros. unfold Double_TryParse. pose proof (oks_stod_pos t) as H. destruct (stod_pos t) as [[z p]|e|u|x|]; cbn [oks] in *; auto.
  - destruct (p <? length t)%nat; cbn [oks]; auto.
  - destruct e; cbn; auto.
Qed.
#[export] Hint Resolve oks_int_try oks_double_try : oks.
Lemma oks_mk_token : forall t a b c, oks (mk_token t a b c) token_ok.
Proof.
  intros. unfold mk_token. eapply oks_bind with (Q1 := fun tv => forall a b c, token_ok (Token (fst tv) (snd tv) a b c)).
  - unfold classify. pauto; subst; intros; cbn; auto.
  - intros tv H. cbn. apply H.
Qed.
#[export] Hint Resolve oks_mk_token : oks.

Definition ts_ok (s : tstate) : Prop := Forall token_ok (ts_toks s).
Lemma oks_add_token : forall off t p s, ts_ok s -> oks (add_token off t p s) ts_ok.
Proof. intros. unfold add_token. pauto; auto. unfold ts_ok. cbn. constructor; auto. Qed.
#[export] Hint Resolve oks_add_token : oks.
Lemma ts_ok_same : forall s s', ts_toks s' = ts_toks s -> ts_ok s -> ts_ok s'.
Proof. unfold ts_ok. congruence. Qed.
Lemma oks_process_escape : forall c, oks (process_escape c) tt_.
Proof. intros. unfold process_escape. pauto. Qed.
Lemma oks_process_comment : forall off r s, ts_ok s -> oks (process_comment off r s) ts_ok.
Proof. intros. unfold process_comment. pauto. Qed.
#[export] Hint Resolve oks_process_escape oks_process_comment : oks.
Ltac pmid := match goal with |- oks (obind _ _) _ => apply oks_bind with (Q1 := ts_ok) end.
Lemma oks_tok_step : forall off s c r, ts_ok s -> oks (tok_step off s c r) ts_ok.
Proof.
  intros off s c r H. unfold tok_step.
  repeat (first [exact H | assumption | solve [eauto 3 with oks]
    | match goal with
      | |- oks (obind (if ts_bs _ then process_escape _ else _) _) _ => apply oks_bind with (Q1 := tt_)
      | |- oks (if ts_bs _ then process_escape _ else _) _ => destruct (ts_bs s)
      | |- oks (obind _ _) _ => apply oks_bind with (Q1 := ts_ok)
      | |- oks (Val _) _ => cbn [oks]; try exact I
      | |- oks (Undef _) _ => ubok
      | |- oks (if ?b then _ else _) _ => destruct b eqn:?
      | |- oks (let x := _ in _) _ => cbv zeta
      | |- forall _, _ => intro
      | |- ts_ok (if ?b then _ else _) => destruct b
      | |- ts_ok _ => eapply ts_ok_same; [|eassumption]; cbn; auto
      end]).
  all: try (destruct (negb (ts_insym s) && negb (ts_instr s)); reflexivity).
Qed.
Lemma oks_tok_loop : forall off code s, ts_ok s -> oks (tok_loop off code s) ts_ok.
Proof.
  induction code as [|c r IH]; intros s H; cbn [tok_loop]; [exact H|].
  destruct (ts_skip s).
  - eapply oks_bind; [apply oks_tok_step; exact H|]. intros s1 H1. apply IH. exact H1.
  - apply IH. exact H.
Qed.
Lemma oks_tokenize : forall code off, oks (tokenize code off) (Forall token_ok).
Proof.
  intros. unfold tokenize. eapply oks_bind; [apply oks_tok_loop; constructor|]. intros s H. unfold tok_finish.
  assert (R : forall s, ts_ok s -> Forall token_ok (rev (ts_toks s))).
  { intros s0 H0. apply Forall_rev. exact H0. }
  destruct (ts_cur s); [apply R; exact H|]. eapply oks_bind; [apply oks_add_token; exact H|]. intros s1 H1. apply R. exact H1.
Qed.

(** ** Trees *)
Fixpoint tree_ok (t : ptree) : Prop :=
  match t with PTok tk => token_ok tk | PSym _ => True | PList l => all tree_ok l end.
Lemma all_rev_tree : forall l, all tree_ok l -> all tree_ok (rev l).
Proof. intros. apply all_rev. assumption. Qed.
Lemma oks_parse_tokens : forall n m last top ts stack,
  Forall token_ok ts -> all (all tree_ok) stack ->
  oks (parse_tokens n m last top ts stack) (fun r => tree_ok (fst r) /\ Forall token_ok (snd r)).
Proof.
  induction n as [|n IH]; intros m last top ts stack Ht Hs; [exact I|]. cbn [parse_tokens].
  destruct ts as [|t ts].
  - destruct top, last, stack as [|c stack]; cbn in *; try ubok; auto; (split; [apply all_rev; tauto|constructor]).
  - inversion Ht as [|t' ts' Ht1 Ht2 Et]; subst.
    assert (HE : forall name, oks
      (let? r := parse_tokens n m last false ts [] in
        let '(q, ts2) := r in
        match stack with
        | [] => parse_tokens n m last top ts2 []
        | cur :: stack' => parse_tokens n m last top ts2 ((PList [PSym name; q] :: cur) :: stack')
        end) (fun r => tree_ok (fst r) /\ Forall token_ok (snd r))).
    { intro name. eapply oks_bind; [apply IH; [exact Ht2|exact I]|]. intros [q ts2] [H1 H2]. cbn [fst snd] in *.
      destruct stack as [|c stack]; apply IH; auto. cbn in *. tauto. }
    assert (HU : forall name, oks
      (let? r := parse_tokens n m last false ts [] in
        let '(q, ts2) := r in
        match stack with
        | [] => Val (PList [PSym name; q], ts2)
        | cur :: stack' => parse_tokens n m last top ts2 ((PList [PSym name; q] :: cur) :: stack')
        end) (fun r => tree_ok (fst r) /\ Forall token_ok (snd r))).
    { intro name. eapply oks_bind; [apply IH; [exact Ht2|exact I]|]. intros [q ts2] [H1 H2]. cbn [fst snd] in *.
      destruct stack as [|c stack]; [cbn; tauto|]; apply IH; auto. cbn in *. tauto. }
    assert (HA : oks
      match stack with
      | [] => if top then Throw (exn_at msg_unexpected t m) else Val (PTok t, ts)
      | cur :: stack' => parse_tokens n m last top ts ((PTok t :: cur) :: stack')
      end (fun r => tree_ok (fst r) /\ Forall token_ok (snd r))).
    { destruct stack as [|c stack]; [destruct top; cbn; auto|]. apply IH; auto. cbn in *. tauto. }
    destruct (tk_type t) eqn:Tt; auto.
    + apply IH; auto. cbn. auto.
    + destruct stack as [|c [|u stack]]; [ubok| |].
      * destruct (top && negb (only_comments ts)); [exact I|]. cbn [oks fst snd]. cbn in Hs. split; [|exact Ht2].
        apply all_rev. tauto.
      * apply IH; auto. cbn in Hs |- *. destruct Hs as [H1 [H2 H3]]. repeat split; auto. apply all_rev. exact H1.
Qed.
Lemma oks_parse_toplevel : forall m ts, Forall token_ok ts -> oks (parse_toplevel m ts) tree_ok.
Proof.
  intros m ts H. unfold parse_toplevel. eapply oks_bind; [apply oks_parse_tokens; [exact H|exact I]|].
  intros r [H1 H2]. exact H1.
Qed.
Lemma var_of_token_ok {T : Priv} : forall w t, token_ok t -> ok_var w (var_of_token t).
Proof.
  intros w [ty v a b c] H. unfold var_of_token, token_ok in *. cbn [tk_type tk_val] in *.
  destruct ty, v; cbn in *; auto; try contradiction.
Qed.

(** ** The heap *)
Lemma oks_get_vec {T : Priv} : forall st l, ok st -> vec_in st l -> oks (get_vec l st) (all (ok_ptr st)).
Proof.
  intros st l K [H NP]. unfold get_vec. unfold vec_any in H. destruct (PositiveMap.find l (st_vecs st)) eqn:F; [|congruence].
  apply K in F. apply F. exact NP.
Qed.
Lemma oks_get_dict {T : Priv} : forall st l, ok st -> dict_in st l -> oks (get_dict l st) (dict_ok st).
Proof.
  intros st l K [H NP]. unfold get_dict. unfold dict_any in H. destruct (PositiveMap.find l (st_dicts st)) eqn:F; [|congruence].
  apply K in F. apply F. exact NP.
Qed.
Lemma oks_deref {T : Priv} : forall st p, ok_ptr st p -> oks (deref p) (ok_obj st).
Proof. intros st [|i o] H; cbn; [ubok|exact H]. Qed.
Lemma vref_obj_ok {T : Priv} : forall st o, ok_obj st o -> ok_var st (vref_obj o).
Proof. intros st o H. destruct o; cbn in *; auto. Qed.
Lemma oks_vref {T : Priv} : forall st p, ok_ptr st p -> oks (vref p) (ok_var st).
Proof. intros st [|i o] H; cbn; [ubok|]. apply vref_obj_ok. exact H. Qed.
Lemma var_of_obj_ok {T : Priv} : forall st o, ok_obj st o -> ok_var st (var_of_obj o).
Proof. intros st o H. destruct o; cbn in *; auto. Qed.
Lemma oks_var_of_ptr {T : Priv} : forall st p, ok_ptr st p -> oks (var_of_ptr p) (ok_var st).
Proof. intros st [|i o] H; cbn; [ubok|]. apply var_of_obj_ok. exact H. Qed.
#[export] Hint Resolve oks_get_vec oks_get_dict oks_get_scope oks_deref oks_vref oks_var_of_ptr vref_obj_ok var_of_obj_ok : oks.

Lemma oks_join : forall A sep (f : A -> out str) es acc,
  (forall e, In e es -> oks (f e) tt_) -> oks (join_out sep f es acc) tt_.
Proof.
  induction es as [|e es IH]; intros acc H; cbn [join_out]; [exact I|].
  eapply oks_bind; [apply H; left; reflexivity|]. intros s _. apply IH. intros. apply H. right. assumption.
Qed.

Definition req_ok {T : Priv} (st : state) (r : shreq) : Prop :=
  match r with
  | ShObj o | ShCont o => ok_obj st o
  | ShVar v | ShDbg v => ok_var st v
  | ShNat None => True
  | ShNat (Some o) => ok_obj st o
  end.

Lemma ok_val {T : Priv} : forall st v o, ok_var st v -> v_val v = Some o -> ok_obj st o.
Proof. intros st [t [o'|] u k] o H E; cbn in *; [|discriminate]. inversion E. subst. apply H. Qed.
Lemma ok_val_o {T : Priv} : forall st v, ok_var st v -> oopt ok_obj st (v_val v).
Proof. intros st v H. destruct (v_val v) eqn:E; cbn; auto. eapply ok_val; eauto. Qed.
#[export] Hint Resolve ok_val ok_val_o : oks.

Lemma oks_show {T : Priv} : forall n st r, ok st -> req_ok st r -> oks (show n st r) tt_.
Proof.
  induction n as [|n IH]; intros st r K H; [ubok|]. cbn [show].
  assert (L : forall l (mk : obj -> shreq), (forall o, ok_obj st o -> req_ok st (mk o)) -> vec_in st l ->
    oks (let? es := get_vec l st in
         let? s := join_out $" " (fun p => let? o := deref p in show n st (mk o)) es [] in
         Val ($"(" ++ s ++ $")")) tt_).
  { intros l mk Hmk Hl. eapply oks_bind; [apply oks_get_vec; assumption|]. intros es Hes.
    eapply oks_bind; [|intros; exact I]. apply oks_join. intros p Hp. rewrite all_in in Hes.
    eapply oks_bind; [apply oks_deref; apply Hes; exact Hp|]. intros o Ho. apply IH; auto. }
  destruct r as [o|v|v|o|[o|]]; cbn [req_ok] in H.
  - destruct o; try exact I. + apply (L l ShObj); auto. + apply IH; auto.
  - destruct v as [t [o|] u k]; destruct t; cbn [v_ty v_val ok_var] in *; try exact I;
      try (destruct H; discriminate); destruct H as [Ht Ho]; try (apply IH; auto);
      try (destruct o; cbn in Ht; try contradiction; try exact I).
    + apply IH; auto.
    + eapply oks_bind; [apply IH; auto|]. intros; exact I.
  - destruct (is_ty TString v); [|apply IH; auto]. destruct (v_val v) eqn:E; [|exact I].
    eapply oks_bind; [apply IH; auto; cbn; eapply ok_val; eauto|]. intros; exact I.
  - destruct o; try (apply IH; exact H || assumption).
    + apply (L l ShCont); auto.
    + destruct (is_ty TString v); apply IH; auto.
  - destruct o; try (apply IH; exact H || assumption); try exact I.
    eapply oks_bind; [apply oks_get_dict; assumption|]. intros d Hd.
    eapply oks_bind; [|intros; exact I]. apply oks_join. intros [k o] Hkv. unfold dict_ok in Hd. rewrite all_in in Hd.
    destruct (Hd _ Hkv) as [H1 H2]. cbn [fst snd] in *.
    eapply oks_bind; [apply IH; auto; cbn|]. { apply ok_val_o in H1. destruct (v_val k); auto. }
    intros. eapply oks_bind; [apply IH; auto; destruct o; cbn; auto|]. intros; exact I.
  - ubok.
Qed.
Lemma oks_obj_str {T : Priv} : forall st o, ok st -> ok_obj st o -> oks (obj_str o st) tt_.
Proof. intros. apply oks_show; auto. Qed.
Lemma oks_var_str {T : Priv} : forall st o, ok st -> ok_var st o -> oks (var_str o st) tt_.
Proof. intros. apply oks_show; auto. Qed.
Lemma oks_var_dbg {T : Priv} : forall st o, ok st -> ok_var st o -> oks (var_dbg o st) tt_.
Proof. intros. apply oks_show; auto. Qed.
#[export] Hint Resolve oks_obj_str oks_var_str oks_var_dbg : oks.
Lemma oks_ptr_str {T : Priv} : forall st p, ok st -> ok_ptr st p -> oks (ptr_str p st) tt_.
Proof. intros. unfold ptr_str. pauto. Qed.
Lemma oks_string_value {T : Priv} : forall st v, ok st -> ok_var st v -> oks (string_value v st) tt_.
Proof. intros. unfold string_value. pauto. Qed.
#[export] Hint Resolve oks_ptr_str oks_string_value : oks.
Lemma oks_cast_fail {T : Priv} : forall A st v n m Q, ok st -> ok_var st v -> @oks A (cast_fail v n m st) Q.
Proof. intros. unfold cast_fail. pauto. Qed.
Lemma oks_op_fail : forall A op l r Q, @oks A (op_fail op l r) Q.
Proof. intros. unfold op_fail. pauto. Qed.
#[export] Hint Resolve oks_cast_fail oks_op_fail : oks.

Lemma oks_type_string {T : Priv} : forall st v, ok_var st v -> oks (type_string v) tt_.
Proof.
  intros st [t [o|] u k] H; unfold type_string; cbn [v_ty v_val]; destruct t; try exact I; cbn in H.
  - destruct o; cbn in H; try tauto; exact I.
  - destruct H; discriminate.
Qed.
#[export] Hint Resolve oks_type_string : oks.

(** The Value of a variant of a given type. *)
Lemma tag_val {T : Priv} : forall st v t, ok_var st v -> is_ty t v = true -> t <> TNil -> t <> TUndef ->
  exists o, v_val v = Some o /\ tag_ok t o /\ ok_obj st o.
Proof.
  intros st [t' [o|] u k] t H E N1 N2; unfold is_ty, ltype_eqb in E; cbn in *.
  - assert (t' = t) by (destruct t, t'; cbn in E; congruence). subst. eauto.
  - assert (t' = t) by (destruct t, t'; cbn in E; congruence). subst. destruct H; congruence.
Qed.
Ltac tagged H E :=
  let o := fresh "o" in let E1 := fresh in let E2 := fresh in let E3 := fresh in
  destruct (tag_val _ _ _ H E ltac:(discriminate) ltac:(discriminate)) as [o [E1 [E2 E3]]]; rewrite E1;
  destruct o; cbn [tag_ok] in E2; try contradiction.
Lemma oks_bool_value {T : Priv} : forall st v, ok st -> ok_var st v -> oks (bool_value v st) tt_.
Proof. intros st v K H. unfold bool_value. destruct (is_ty TBool v) eqn:E; [|pauto]. tagged H E. exact I. Qed.
Lemma oks_int_value {T : Priv} : forall st v, ok st -> ok_var st v -> oks (int_value v st) (fun z => in_int z = true).
Proof. intros st v K H. unfold int_value. destruct (is_ty TInt v) eqn:E; [|pauto]. tagged H E. assumption. Qed.
Lemma oks_double_value {T : Priv} : forall st v, ok st -> ok_var st v -> oks (double_value v st) tt_.
Proof. intros st v K H. unfold double_value. destruct (is_ty TDouble v) eqn:E; [|pauto]. tagged H E. exact I. Qed.
#[export] Hint Resolve oks_bool_value oks_int_value oks_double_value : oks.
Lemma oks_cannot_convert {T : Priv} : forall A st v n Q, ok st -> ok_var st v -> @oks A (cannot_convert v n st) Q.
Proof. intros. unfold cannot_convert. pauto. Qed.
#[export] Hint Resolve oks_cannot_convert : oks.
Lemma oks_to_bool {T : Priv} : forall st v, ok st -> ok_var st v -> oks (to_bool v st) tt_.
Proof. intros st v K H. unfold to_bool. pauto. Qed.
Lemma oks_to_int {T : Priv} : forall st v, ok st -> ok_var st v -> oks (to_int v st) (fun z => in_int z = true).
Proof. intros st v K H. unfold to_int. pauto. destruct a; reflexivity. Qed.
Lemma oks_to_double {T : Priv} : forall st v, ok st -> ok_var st v -> oks (to_double v st) tt_.
Proof. intros st v K H. unfold to_double. pauto. Qed.
#[export] Hint Resolve oks_to_bool oks_to_int oks_to_double : oks.
Lemma oks_list_value {T : Priv} : forall st v, ok st -> ok_var st v -> oks (list_value v st) (all (ok_ptr st)).
Proof.
  intros st v K H. destruct v as [t [o|] u k] eqn:V; destruct t; unfold list_value; cbn [v_ty v_val];
    try (rewrite <- V in *; apply oks_cast_fail; assumption); try exact I;
    try (destruct H; discriminate).
  destruct H as [Ht Ho]. destruct o; cbn in Ht; try contradiction. apply oks_get_vec; auto.
Qed.
#[export] Hint Resolve oks_list_value : oks.
Lemma oks_list_loc {T : Priv} : forall st v, ok st -> ok_var st v -> oks (list_loc v st) (oopt vec_in st).
Proof.
  intros st v K H. destruct v as [t [o|] u k] eqn:V; destruct t; unfold list_loc; cbn [v_ty v_val];
    try (rewrite <- V in *; apply oks_cast_fail; assumption); try exact I;
    try (destruct H; discriminate).
  destruct H as [Ht Ho]. destruct o; cbn in Ht; try contradiction. exact Ho.
Qed.
Lemma oks_loc_elems {T : Priv} : forall st l, ok st -> oopt vec_in st l -> oks (loc_elems l st) (all (ok_ptr st)).
Proof. intros st [l|] K H; cbn; auto with oks. Qed.
Lemma oks_function_value {T : Priv} : forall st v, ok st -> ok_var st v -> oks (function_value v st) (ok_fn st).
Proof. intros st v K H. unfold function_value. destruct (is_ty TFun v) eqn:E; [|pauto]. tagged H E. assumption. Qed.
#[export] Hint Resolve oks_list_loc oks_loc_elems oks_function_value : oks.

(** ** Integer results *)
Lemma in_int_range : forall z, in_int z = true <-> (int_min <= z <= int_max)%Z.
Proof. intro z. unfold in_int. rewrite andb_true_iff, !Z.leb_le. tauto. Qed.
Lemma wrap32_in : forall z, in_int (wrap32 z) = true.
Proof.
  intro z. apply in_int_range. unfold wrap32, int_min, int_max.
  pose proof (Z.mod_pos_bound (z + 2147483648) 4294967296 ltac:(lia)). lia.
Qed.
Lemma vint_ok {T : Priv} : forall w z, in_int z = true -> ok_var w (vint z).
Proof. intros w z H. cbn [vint mkv ok_var]. split; [exact I|exact H]. Qed.
Lemma vstr_ok {T : Priv} : forall w t, ok_var w (vstr t).
Proof. intros. cbn. auto. Qed.
Lemma vbool_ok {T : Priv} : forall w t, ok_var w (vbool t).
Proof. intros. cbn. auto. Qed.
Lemma vdouble_ok {T : Priv} : forall w t, ok_var w (vdouble t).
Proof. intros. cbn. auto. Qed.
Lemma vnil_ok {T : Priv} : forall w, ok_var w vnil.
Proof. intros. cbn. auto. Qed.
Lemma vundef_ok {T : Priv} : forall w, ok_var w vundef.
Proof. intros. cbn. auto. Qed.
#[export] Hint Resolve wrap32_in vint_ok vstr_ok vbool_ok vdouble_ok vnil_ok vundef_ok : oks.
Lemma oks_int_res {T : Priv} : forall w z, oks (int_res z) (ok_var w).
Proof. intros. unfold int_res. destruct (in_int z) eqn:E; [apply vint_ok; exact E|ubok]. Qed.
Lemma quot_in : forall a b, in_int a = true -> in_int b = true -> (b =? 0)%Z || ((a =? int_min) && (b =? -1))%Z = false ->
  in_int (Z.quot a b) = true.
Proof.
  intros a b Ha Hb E. apply in_int_range in Ha, Hb. apply in_int_range. unfold int_min, int_max in *.
  apply orb_false_iff in E. destruct E as [E1 E2]. apply Z.eqb_neq in E1.
  assert (Hq : (Z.abs (Z.quot a b) <= Z.abs a)%Z).
  { rewrite <- Z.quot_abs by assumption. apply Z.quot_le_upper_bound; try lia. nia. }
  destruct (Z.eq_dec a (-2147483648)) as [->|N]; [|lia].
  change ((b =? -1)%Z = false) in E2. apply Z.eqb_neq in E2.
  assert (Z.abs b = 1 \/ 2 <= Z.abs b)%Z as [B|B] by lia.
  - assert (b = 1)%Z by lia. subst. rewrite Z.quot_1_r. lia.
  - assert (Z.abs (Z.quot (-2147483648) b) <= 1073741824)%Z; [|lia].
    rewrite <- Z.quot_abs by assumption. apply Z.quot_le_upper_bound; try lia. 
Qed.
Lemma rem_in : forall a b, in_int a = true -> in_int b = true -> (b =? 0)%Z = false -> in_int (Z.rem a b) = true.
Proof.
  intros a b Ha Hb E. apply in_int_range in Ha, Hb. apply in_int_range. unfold int_min, int_max in *. apply Z.eqb_neq in E.
  pose proof (Z.rem_bound_abs a b E). assert (Z.abs (Z.rem a b) <= Z.abs a)%Z; [|].
  { rewrite <- Z.rem_abs by assumption. apply Z.rem_le; lia. }
  pose proof (Z.rem_sign_nz a b E). lia.
Qed.
Lemma in_int_shiftr : forall z, in_int z = true <-> (Z.shiftr z 31 = 0 \/ Z.shiftr z 31 = -1)%Z.
Proof.
  intro z. rewrite in_int_range, Z.shiftr_div_pow2 by lia. change (2 ^ 31)%Z with 2147483648%Z. unfold int_min, int_max.
  pose proof (Z.div_mod z 2147483648 ltac:(lia)). pose proof (Z.mod_pos_bound z 2147483648 ltac:(lia)). lia.
Qed.
Lemma bits_in : forall (f : Z -> Z -> Z),
  (forall a b, Z.shiftr (f a b) 31 = f (Z.shiftr a 31) (Z.shiftr b 31)) ->
  (forall a b, (a = 0 \/ a = -1 -> b = 0 \/ b = -1 -> f a b = 0 \/ f a b = -1)%Z) ->
  forall a b, in_int a = true -> in_int b = true -> in_int (f a b) = true.
Proof. intros f H1 H2 a b. rewrite !in_int_shiftr, H1. apply H2. Qed.
Lemma lor_in : forall a b, in_int a = true -> in_int b = true -> in_int (Z.lor a b) = true.
Proof. apply bits_in; [intros; apply Z.shiftr_lor|]. intros a b [->| ->] [->| ->]; cbn; auto. Qed.
Lemma land_in : forall a b, in_int a = true -> in_int b = true -> in_int (Z.land a b) = true.
Proof. apply bits_in; [intros; apply Z.shiftr_land|]. intros a b [->| ->] [->| ->]; cbn; auto. Qed.
Lemma lxor_in : forall a b, in_int a = true -> in_int b = true -> in_int (Z.lxor a b) = true.
Proof. apply bits_in; [intros; apply Z.shiftr_lxor|]. intros a b [->| ->] [->| ->]; cbn; auto. Qed.
Lemma lnot_in : forall a, in_int a = true -> in_int (Z.lnot a) = true.
Proof. intros a. rewrite !in_int_range. unfold Z.lnot, int_min, int_max. lia. Qed.
Lemma shiftr_in : forall a b, in_int a = true -> (0 <= b)%Z -> in_int (Z.shiftr a b) = true.
Proof.
  intros a b. rewrite !in_int_range. unfold int_min, int_max. intros H Hb. rewrite Z.shiftr_div_pow2 by lia.
  assert (1 <= 2 ^ b)%Z by (pose proof (Z.pow_pos_nonneg 2 b); lia).
  split; [apply Z.div_le_lower_bound; nia|]. apply Z.div_le_upper_bound; nia.
Qed.
#[export] Hint Resolve oks_int_res quot_in rem_in lor_in land_in lxor_in lnot_in shiftr_in : oks.

(** ** Operators *)
Lemma oks_arith {T : Priv} : forall st op fd fi l r, ok st -> ok_var st l -> ok_var st r ->
  (forall a b, in_int a = true -> in_int b = true -> oks (fi a b) (ok_var st)) ->
  oks (arith op fd fi l r st) (ok_var st).
Proof.
  intros st op fd fi l r K Hl Hr Hf. unfold arith. pauto; auto with oks.
Qed.
Lemma oks_int_div {T : Priv} : forall w a b, in_int a = true -> in_int b = true -> oks (int_div a b) (ok_var w).
Proof. intros. unfold int_div. pauto. Qed.
Lemma oks_int_mod {T : Priv} : forall w a b, in_int a = true -> in_int b = true -> oks (int_mod a b) (ok_var w).
Proof.
  intros. unfold int_mod. destruct ((b =? 0)%Z || _) eqn:E; [ubok|]. apply orb_false_iff in E. destruct E as [E _].
  apply vint_ok. apply rem_in; auto.
Qed.
#[export] Hint Resolve oks_int_div oks_int_mod : oks.
Lemma oks_v_sub {T : Priv} : forall st l r, ok st -> ok_var st l -> ok_var st r -> oks (v_sub l r st) (ok_var st).
Proof. intros. apply oks_arith; auto with oks. Qed.
Lemma oks_v_mul {T : Priv} : forall st l r, ok st -> ok_var st l -> ok_var st r -> oks (v_mul l r st) (ok_var st).
Proof. intros. apply oks_arith; auto with oks. Qed.
Lemma oks_v_div {T : Priv} : forall st l r, ok st -> ok_var st l -> ok_var st r -> oks (v_div l r st) (ok_var st).
Proof. intros. apply oks_arith; auto with oks. Qed.
Lemma oks_v_mod {T : Priv} : forall st l r, ok st -> ok_var st l -> ok_var st r -> oks (v_mod l r st) (ok_var st).
Proof. intros. apply oks_arith; auto with oks. Qed.
Lemma oks_compare {T : Priv} : forall st op fd fi fs l r, ok st -> ok_var st l -> ok_var st r -> oks (compare_op op fd fi fs l r st) tt_.
Proof. intros. unfold compare_op. pauto. Qed.
Lemma oks_v_lt {T : Priv} : forall st l r, ok st -> ok_var st l -> ok_var st r -> oks (v_lt l r st) tt_.
Proof. intros. apply oks_compare; auto. Qed.
Lemma oks_v_le {T : Priv} : forall st l r, ok st -> ok_var st l -> ok_var st r -> oks (v_le l r st) tt_.
Proof. intros. apply oks_compare; auto. Qed.
#[export] Hint Resolve oks_v_sub oks_v_mul oks_v_div oks_v_mod oks_v_lt oks_v_le : oks.
Lemma oks_obj_eq_simple {T : Priv} : forall st a b, ok st -> ok_obj st a -> ok_obj st b -> oks (obj_eq_simple a b st) tt_.
Proof. intros st a b K Ha Hb. unfold obj_eq_simple. destruct a, b; cbn [ok_obj] in *; try exact I; pauto. Qed.
#[export] Hint Resolve oks_obj_eq_simple : oks.
Lemma oks_obj_eqb {T : Priv} : forall st a b, ok st -> ok_obj st a -> ok_obj st b -> oks (obj_eqb a b st) tt_.
Proof.
  intros st a b K Ha Hb. unfold obj_eqb. destruct a; try (apply oks_obj_eq_simple; assumption).
  destruct b; try (apply oks_obj_eq_simple; assumption). cbn [ok_obj] in *.
  destruct (v_val v) eqn:E1; [|ubok]. destruct (v_val v0) eqn:E2; [|ubok].
  apply oks_obj_eq_simple; eauto with oks.
Qed.
#[export] Hint Resolve oks_obj_eqb : oks.
Lemma oks_seq_eq {T : Priv} : forall st ps qs, ok st -> all (ok_ptr st) ps -> all (ok_ptr st) qs -> oks (seq_eq ps qs st) tt_.
Proof.
  induction ps as [|p ps IH]; intros [|q qs] K H1 H2; cbn [seq_eq]; try exact I. destruct H1, H2. pauto.
Qed.
#[export] Hint Resolve oks_seq_eq : oks.
Lemma oks_equal_op {T : Priv} : forall st l r, ok st -> ok_var st l -> ok_var st r -> oks (equal_op l r st) tt_.
Proof. intros. unfold equal_op, sequence_equal. pauto. Qed.
Lemma oks_symbol_compare {T : Priv} : forall st v p, ok st -> ok_var st v -> ok_ptr st p -> oks (symbol_compare v p st) tt_.
Proof.
  intros. unfold symbol_compare. eapply oks_bind; [apply oks_deref; eassumption|]. intros o Ho.
  destruct o; try exact I. cbn [ok_obj] in Ho. pauto. eauto 5 with oks.
Qed.
#[export] Hint Resolve oks_equal_op oks_symbol_compare : oks.

(** ** Scopes *)
Lemma vars_find_ok {T : Priv} : forall w k vs, vars_ok w vs -> oopt ok_ptr w (vars_find k vs).
Proof.
  induction vs as [|[k' p] vs IH]; intro H; cbn [vars_find]; [exact I|]. destruct H as [H1 H2].
  destruct (str_eqb k k'); [exact H1|auto].
Qed.
Lemma str_cmp_eq : forall a b, str_cmp a b = Eq -> a = b.
Proof.
  induction a as [|x a IH]; intros [|y b] H; cbn in H; try discriminate; [reflexivity|].
  destruct (Nat.compare (nat_of_ascii x) (nat_of_ascii y)) eqn:C; try discriminate.
  apply Nat.compare_eq in C. f_equal; [|auto].
  rewrite <- (ascii_nat_embedding x), <- (ascii_nat_embedding y), C. reflexivity.
Qed.
Lemma str_cmp_lt_trans : forall a b c, str_cmp a b = Lt -> str_cmp b c = Lt -> str_cmp a c = Lt.
Proof.
  induction a as [|x a IH]; intros [|y b] [|z c] H1 H2; cbn in *; try discriminate; auto.
  destruct (Nat.compare (nat_of_ascii x) (nat_of_ascii y)) eqn:C1; try discriminate;
  destruct (Nat.compare (nat_of_ascii y) (nat_of_ascii z)) eqn:C2; try discriminate.
  - apply Nat.compare_eq in C1. rewrite C1, C2. eauto.
  - apply Nat.compare_eq in C1. rewrite C1, C2. reflexivity.
  - apply Nat.compare_eq in C2. rewrite <- C2, C1. reflexivity.
  - apply Nat.compare_lt_iff in C1, C2. assert (L : (nat_of_ascii x < nat_of_ascii z)%nat) by lia.
    apply Nat.compare_lt_iff in L. rewrite L. reflexivity.
Qed.
Lemma str_cmp_gt : forall a b, str_cmp a b = Gt -> str_cmp b a = Lt.
Proof.
  induction a as [|x a IH]; intros [|y b] H; cbn in *; try discriminate; auto.
  rewrite Nat.compare_antisym. destruct (Nat.compare (nat_of_ascii x) (nat_of_ascii y)) eqn:C; cbn; try discriminate; auto.
Qed.
Lemma vars_set_ok {T : Priv} : forall w k p vs, ok_ptr w p -> vars_ok w vs -> vars_ok w (vars_set k p vs).
Proof.
  induction vs as [|[k' p'] vs IH]; intros Hp H; cbn [vars_set]; [cbn; auto|]. destruct H as [H1 H2].
  destruct (str_cmp k k'); cbn; auto. split; auto. apply IH; auto.
Qed.
Lemma vars_set_sorted : forall k p vs, keys_sorted vs -> keys_sorted (vars_set k p vs).
Proof.
  induction vs as [|[k' p'] vs IH]; intros H; cbn [vars_set]; [cbn; auto|]. destruct H as [H1 H2].
  destruct (str_cmp k k') eqn:C; cbn [keys_sorted].
  - apply str_cmp_eq in C. subst. auto.
  - split; [|split; assumption]. cbn. split; [exact C|]. eapply all_impl; [|exact H1]. intros [k2 p2]. cbn.
    intro. eapply str_cmp_lt_trans; eauto.
  - split; [|auto]. apply str_cmp_gt in C. clear IH H2. induction vs as [|[k2 p2] vs IH]; cbn [vars_set].
    + cbn. auto.
    + destruct H1 as [H1 H2]. cbn [fst] in H1. destruct (str_cmp k k2); cbn; auto.
Qed.
Lemma vars_remove_ok {T : Priv} : forall w k vs, vars_ok w vs -> vars_ok w (vars_remove k vs).
Proof.
  induction vs as [|[k' p'] vs IH]; intros H; cbn [vars_remove]; [exact I|]. destruct H as [H1 H2].
  destruct (str_eqb k k'); [exact H2|]. split; [exact H1|apply IH; exact H2].
Qed.
Lemma vars_remove_all : forall (P : str * ptr -> Prop) k vs, all P vs -> all P (vars_remove k vs).
Proof.
  induction vs as [|[k' p'] vs IH]; intros H; cbn [vars_remove]; [exact I|]. destruct H as [H1 H2].
  destruct (str_eqb k k'); [exact H2|]. split; [exact H1|apply IH; exact H2].
Qed.
Lemma vars_remove_sorted : forall k vs, keys_sorted vs -> keys_sorted (vars_remove k vs).
Proof.
  induction vs as [|[k' p'] vs IH]; intros H; cbn [vars_remove]; [exact I|]. destruct H as [H1 H2].
  destruct (str_eqb k k'); [exact H2|]. split; [apply vars_remove_all; exact H1|apply IH; exact H2].
Qed.

Lemma oks_scope_find {T : Priv} : forall st s k, ok st -> scope_in st s -> oks (scope_find s k st) (oopt ok_ptr st).
Proof. intros. unfold scope_find. eapply oks_bind; [eauto with oks|]. intros sc H1. cbn [oks]. apply vars_find_ok. apply H1. Qed.
#[export] Hint Resolve oks_scope_find : oks.
Lemma oks_closure_find {T : Priv} : forall n st s k, ok st -> scope_in st s -> (Pos.to_nat s <= n)%nat ->
  oks (closure_find n s k st) (fun r => match r with Some (c, p) => scope_in st c /\ ok_ptr st p | None => True end).
Proof.
  induction n as [|n IH]; intros st s k K H L; [lia|]. cbn [closure_find].
  eapply oks_bind; [apply oks_get_scope; assumption|]. intros sc Hsc. destruct (s_closure sc) as [c|] eqn:Ec; [|exact I].
  destruct (os_closure _ _ _ Hsc c Ec) as [Hc Lc].
  eapply oks_bind; [apply oks_scope_find; assumption|]. intros r Hr. destruct r as [p|]; [cbn in *; auto|].
  apply IH; auto. lia.
Qed.
Lemma oks_in_closure_chain {T : Priv} : forall st s k, ok st -> scope_in st s ->
  oks (in_closure_chain s k st) (fun r => match r with Some (c, p) => scope_in st c /\ ok_ptr st p | None => True end).
Proof. intros. apply oks_closure_find; auto. Qed.
Lemma oks_scope_ref {T : Priv} : forall st p, ok_ptr st p -> oks (scope_ref p) (scope_in st).
Proof. intros st [|i o] H; [ubok|]. destruct o; try ubok. exact H. Qed.
#[export] Hint Resolve oks_in_closure_chain oks_scope_ref : oks.
Lemma oks_modules_search {T : Priv} : forall st ms k, ok st -> vars_ok st ms -> oks (modules_search ms k st) (oopt ok_ptr st).
Proof.
  induction ms as [|[n p] ms IH]; intros k K H; cbn [modules_search]; [exact I|]. destruct H as [H1 H2]. cbn [snd] in H1.
  pauto.
Qed.
#[export] Hint Resolve oks_modules_search : oks.
Lemma oks_stack_of {T : Priv} : forall n st s, ok st -> scope_any st s -> (Pos.to_nat s <= n)%nat -> oks (stack_of n s st) tt_.
Proof.
  induction n as [|n IH]; intros st s K H L; [lia|]. cbn [stack_of].
  eapply oks_bind; [apply oks_get_links; assumption|]. intros sc Hsc. destruct (s_prev sc) as [c|] eqn:Ec; [|exact I].
  destruct (ol_prev _ _ _ Hsc c Ec) as [Hc Lc].
  eapply oks_bind; [apply IH; auto; lia|]. intros; exact I.
Qed.
Lemma oks_call_stack {T : Priv} : forall st s, ok st -> scope_in st s -> oks (call_stack s st) tt_.
Proof. intros. apply oks_stack_of; auto. apply in_any. assumption. Qed.
Lemma oks_stack_line : forall l i sc, oks (stack_line l i sc) tt_.
Proof. intros. unfold stack_line. pauto. Qed.
#[export] Hint Resolve oks_call_stack oks_stack_line : oks.
Lemma oks_dump_lines : forall l scs acc, oks (dump_lines l scs acc) tt_.
Proof. induction scs as [|sc scs IH]; intro acc; cbn [dump_lines]; pauto. Qed.
#[export] Hint Resolve oks_dump_lines : oks.
Lemma oks_dump_stack {T : Priv} : forall l st s, ok st -> scope_in st s -> oks (dump_stack l s st) tt_.
Proof. intros. unfold dump_stack. pauto. Qed.
#[export] Hint Resolve oks_dump_stack : oks.
Lemma oks_scope_exn {T : Priv} : forall m st s, ok st -> scope_in st s -> oks (scope_exn m s st) tt_.
Proof. intros. unfold scope_exn. pauto. Qed.
Lemma oks_previous_token {T : Priv} : forall t st s, ok st -> scope_in st s -> oks (previous_token s t st) tt_.
Proof. intros. unfold previous_token. pauto. Qed.
#[export] Hint Resolve oks_scope_exn oks_previous_token : oks.
Lemma oks_get_expression {T : Priv} : forall st p, ok st -> ok_ptr st p -> oks (get_expression p st) (all (ok_ptr st)).
Proof.
  intros. unfold get_expression. eapply oks_bind; [apply oks_deref; eassumption|]. intros o Ho.
  destruct o; try (cbn; auto; fail). apply oks_get_vec; auto.
Qed.
Lemma oks_enumerable {T : Priv} : forall st p, ok st -> ok_ptr st p -> oks (enumerable p st) (all (ok_ptr st)).
Proof.
  intros. unfold enumerable. eapply oks_bind; [apply oks_deref; eassumption|]. intros o Ho.
  destruct o; try ubok. apply oks_get_vec; auto.
Qed.
Lemma oks_list_ref {T : Priv} : forall st p, ok st -> ok_ptr st p -> oks (list_ref p st) (all (ok_ptr st)).
Proof.
  intros. unfold list_ref. eapply oks_bind; [apply oks_deref; eassumption|]. intros o Ho.
  destruct o; try exact I. apply oks_get_vec; auto.
Qed.
Lemma oks_get_macro {T : Priv} : forall st p g, ok st -> ok_ptr st p -> scope_in st g -> oks (get_macro p g st) (oopt ok_ptr st).
Proof. intros. unfold get_macro. pauto. Qed.
#[export] Hint Resolve oks_get_expression oks_enumerable oks_list_ref oks_get_macro : oks.

(** ** Readers of Builtins.v and Eval.v *)
Lemma oks_help_string : forall f a b c d, oks (help_string f a b c d) tt_.
Proof. intros. unfold help_string. cbv zeta. eapply oks_bind with (Q1 := tt_); [|intros; exact I]. pauto. Qed.
Lemma oks_formated_doc : forall f, oks (formated_doc f) tt_.
Proof. intros. apply oks_help_string. Qed.
Lemma oks_html_doc : forall f, oks (html_doc f) tt_.
Proof. intros. apply oks_help_string. Qed.
#[export] Hint Resolve oks_formated_doc oks_html_doc : oks.
Lemma oks_functions_help {T : Priv} : forall sel st vs, ok st -> vars_ok st vs -> oks (functions_help sel vs st) tt_.
Proof.
  induction vs as [|[k p] vs IH]; intros K H; cbn [functions_help]; [exact I|]. destruct H as [H1 H2]. cbn [snd] in *.
  eapply oks_bind with (Q1 := tt_); [pauto|intros]. pauto.
Qed.
Lemma oks_dump_builtins {T : Priv} : forall fmt st vs, (forall f, oks (fmt f) tt_) -> ok st -> vars_ok st vs -> oks (dump_builtins fmt vs st) tt_.
Proof.
  induction vs as [|[k p] vs IH]; intros Hf K H; cbn [dump_builtins]; [exact I|]. destruct H as [H1 H2]. cbn [snd] in *.
  eapply oks_bind with (Q1 := tt_); [pauto|intros]. pauto.
Qed.
Lemma oks_ptrs_str {T : Priv} : forall st ps, ok st -> all (ok_ptr st) ps -> oks (ptrs_str ps st) tt_.
Proof. induction ps as [|p ps IH]; intros K H; cbn [ptrs_str]; [exact I|]. destruct H. pauto. Qed.
Lemma oks_join_ptrs {T : Priv} : forall st sep ps acc, ok st -> all (ok_ptr st) ps -> oks (join_out sep (fun p => ptr_str p st) ps acc) tt_.
Proof. intros. apply oks_join. intros p Hp. apply oks_ptr_str; auto. rewrite all_in in H0. auto. Qed.
Lemma oks_find_len : forall a b c d, oks (find_len a b c d) tt_.
Proof. intros. unfold find_len. pauto. Qed.
Lemma oks_search_list {T : Priv} : forall st t es i, ok st -> all (ok_ptr st) es -> oks (search_list t es i st) tt_.
Proof. induction es as [|e es IH]; intros i K H; cbn [search_list]; [exact I|]. destruct H. pauto. Qed.
Lemma oks_substr_z : forall a b c, oks (substr_z a b c) tt_.
Proof. intros. unfold substr_z. pauto. Qed.
#[export] Hint Resolve oks_functions_help oks_dump_builtins oks_ptrs_str oks_join_ptrs oks_find_len oks_search_list oks_substr_z : oks.
Lemma oks_shl : forall a b, in_int a = true -> in_int b = true -> oks (shl a b) (fun z => in_int z = true).
Proof. intros. unfold shl. pauto; auto. Qed.
Lemma oks_shr : forall a b, in_int a = true -> in_int b = true -> oks (shr a b) (fun z => in_int z = true).
Proof. intros. unfold shr. destruct ((b <? 0)%Z || (31 <? b)%Z) eqn:E; [ubok|]. cbn [oks]. apply shiftr_in; auto. lia. Qed.
Lemma oks_lisp_type {T : Priv} : forall st p, ok_ptr st p -> oks (lisp_type p) tt_.
Proof.
  intros. unfold lisp_type. eapply oks_bind; [apply oks_deref; eassumption|]. intros o Ho. destruct o; try exact I.
  eapply oks_type_string. exact Ho.
Qed.
Lemma oks_append_lists {T : Priv} : forall st ps, ok st -> all (ok_ptr st) ps -> oks (append_lists ps st) (all (ok_ptr st)).
Proof.
  induction ps as [|p ps IH]; intros K H; cbn [append_lists]; [exact I|]. destruct H as [H1 H2].
  eapply oks_bind; [apply oks_vref; eassumption|]. intros v Hv. eapply oks_bind; [apply oks_list_value; assumption|].
  intros es Hes. eapply oks_bind; [apply IH; assumption|]. intros r Hr. cbn [oks]. apply all_app. auto.
Qed.
#[export] Hint Resolve oks_shl oks_shr oks_lisp_type oks_append_lists : oks.
Definition dpos_ok {T : Priv} (w : state) (p : dpos) : Prop :=
  dict_ok w (dp_before p) /\ dict_ok w (dp_after p) /\
  match dp_hit p with Some (k, o) => ok_var w k /\ oopt ok_obj w o | None => True end.
Lemma oks_all_lt_keys {T : Priv} : forall st d f, dict_ok st d -> (forall k, ok_var st k -> oks (f k) tt_) -> oks (all_lt_keys d f) tt_.
Proof.
  induction d as [|[k o] d IH]; intros f H Hf; cbn [all_lt_keys]; [exact I|]. destruct H as [[H1 H2] H3]. cbn [fst] in *.
  eapply oks_bind; [apply Hf; exact H1|]. intros. eapply oks_bind; [apply IH; assumption|]. intros; exact I.
Qed.
Lemma oks_dict_locate {T : Priv} : forall st key d, ok st -> ok_var st key -> dict_ok st d -> oks (dict_locate key d st) (dpos_ok st).
Proof.
  intros st key d K Hk Hd. unfold dict_locate. destruct d as [|[k o] d].
  - cbn. unfold dpos_ok. cbn. auto.
  - destruct Hd as [[H1 H2] H3]. cbn [fst snd] in *. destruct d as [|kv d].
    + eapply oks_bind; [apply oks_v_lt; assumption|]. intros a _.
      assert (D : dict_ok st [(k, o)]) by (cbn; auto).
      destruct a; [cbn; unfold dpos_ok; cbn; auto|]. eapply oks_bind; [apply oks_v_lt; assumption|]. intros b _.
      destruct b; cbn; unfold dpos_ok; cbn; auto.
    + remember ((k, o) :: kv :: d) as D eqn:ED.
      assert (HD : dict_ok st D) by (subst; cbn; cbn in H3; auto). clear ED H3.
      pose proof (oks_all_lt_keys st D (fun k => v_lt k key st) HD (fun k Hk' => oks_v_lt st k key K Hk' Hk)) as L1.
      pose proof (oks_all_lt_keys st D (fun k => v_lt key k st) HD (fun k Hk' => oks_v_lt st key k K Hk Hk')) as L2.
      destruct (all_lt_keys D (fun k => v_lt k key st)) as [lts| | | |]; 
        destruct (all_lt_keys D (fun k => v_lt key k st)) as [gts| | | |]; cbn [oks] in *; auto.
      destruct (_ && _); [|ubok].
      destruct (_ =? _)%nat; [cbn; unfold dpos_ok; cbn; repeat split; auto; [apply all_firstn|apply all_skipn]; exact HD|].
      destruct (_ =? _)%nat; [|ubok]. cbn [oks]. unfold dpos_ok. cbn [dp_before dp_hit dp_after].
      repeat split; [apply all_firstn; exact HD|apply all_skipn; exact HD|].
      destruct (nth_error D (count_leading lts)) as [[k' o']|] eqn:N; [|exact I].
      pose proof (all_nth _ _ _ _ _ HD N) as [X Y]. split; [exact X|]. exact Y.
Qed.
Lemma oks_dict_has_value {T : Priv} : forall st d v, ok st -> dict_ok st d -> oopt ok_obj st v -> oks (dict_has_value d v st) tt_.
Proof.
  induction d as [|[k o] d IH]; intros v K Hd Hv; cbn [dict_has_value]; [exact I|]. destruct Hd as [[H1 H2] H3]. cbn [fst snd] in *.
  destruct o; [|ubok]. destruct v; [|ubok]. cbn [oopt] in Hv. eapply oks_bind; [apply oks_obj_eqb; assumption|]. intros b _.
  destruct b; [exact I|]. apply IH; auto.
Qed.
#[export] Hint Resolve oks_dict_locate oks_dict_has_value : oks.
Lemma oks_pick_file : forall st cs d, oks (pick_file cs d st) tt_.
Proof. induction cs as [|c cs IH]; intro d; cbn [pick_file]; [exact I|]. unfold file_exists. cbn [obind]. pauto. Qed.
Lemma oks_token_before_defn {T : Priv} : forall st p s, ok st -> ok_ptr st p -> scope_in st s -> oks (token_before_defn p s st) tt_.
Proof. intros. unfold token_before_defn. pauto. Qed.
Lemma oks_formal_args_string {T : Priv} : forall st p, ok st -> ok_ptr st p -> oks (formal_args_string p st) tt_.
Proof.
  intros. unfold formal_args_string. eapply oks_bind; [apply oks_deref; eassumption|]. intros o Ho.
  eapply oks_bind with (Q1 := all (ok_ptr st)).
  - destruct o; try ubok; cbn [ok_obj] in Ho; pauto.
  - intros. apply oks_join_ptrs; auto.
Qed.
#[export] Hint Resolve oks_pick_file oks_token_before_defn oks_formal_args_string : oks.

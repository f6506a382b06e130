(** Proofs about the loop function of the standard library. *)
Require Import String Ascii List ZArith Bool Lia.
Require Import PArith FMapPositive.
From Verif Require Import Base CppString Num Token Value State Builtins Eval LispTop SpecLex SpecParse SpecRun SpecVal SpecNum SpecList SpecForm SpecIo SpecLang SpecLoop
  FuelProofs RelProofs FrameProofs RunProofs BuiltinProofs NumProofs ListProofs CalcProofs FormProofs ClosProofs CallProofs IoProofs LangProofs.
Import ListNotations.

Section Loop.
Variable F : funs.
(** ** Staying as it is *)
Lemma counters_i : forall k n, counters k n $"__i" = Some (NumV (Z.of_nat k)). Proof. reflexivity. Qed.
Lemma counters_max : forall k n, counters k n $"max" = Some (NumV (Z.of_nat n)). Proof. reflexivity. Qed.
Lemma no_macro_keeps : forall A W st st' g n, (forall u, ~ W u n) -> (forall u, ~ W u $"###macros###") -> keeps A W st st' -> no_macro st g n -> no_macro st' g n.
Proof.
  intros A W st st' g n N1 N2 K (X & M). pose proof K as (_ & _ & KV & _). split; [eapply exists_keeps; eassumption|]. rewrite (KV g _ X (N2 g)). destruct M as [M|(i & ms & M & XM & V)]; [left; exact M|right].
  exists i, ms. split; [exact M|]. split; [eapply exists_keeps; eassumption|]. rewrite (KV ms _ XM (N1 ms)). exact V.
Qed.
Lemma word_keeps : forall A W st st' s g n, (forall u, ~ W u n) -> (forall u, ~ W u $"###macros###") -> scope_exists st s -> keeps A W st st' -> word_at st s g n -> word_at st' s g n.
Proof.
  intros A W st st' s g n N1 N2 X K (M & H & i & v & fn & V & FN & B). pose proof K as (_ & _ & KV & _). split; [eapply no_macro_keeps; eassumption|].
  rewrite (KV s _ X (N1 s)), (KV g _ (proj1 M) (N1 g)). split; [exact H|]. exists i, v, fn. auto.
Qed.
Lemma loop_keeps : forall A W st st' q, keeps A W st st' -> loop_code st q -> loop_code st' q.
Proof.
  intros A W st st' q K (H1 & H2 & (pf & pl & pn & pi & pk & H3 & H4 & H5 & H6 & H7 & H8) & H9). split; [eapply exp_keeps; eassumption|]. split; [eapply code_keeps; eassumption|].
  split; [|eapply stm_keeps; eassumption]. exists pf, pl, pn, pi, pk. repeat split; try assumption; eapply code_keeps; eassumption.
Qed.
Lemma stands_keeps : forall A W st st' w k v, keeps A W st st' -> stands_at st w k v -> stands_at st' w k v.
Proof.
  intros A W st st' w k v (KL & _) [(l & es & e & (T & V & L) & H)|H]; [left|right; exact H]. exists l, es, e. split; [|exact H]. repeat split; auto.
Qed.
Lemma frame_exists : forall st s g m, frame F st s g m -> scope_exists st s.
Proof. intros st s g m ((sc & H & _) & _). exists sc. exact H. Qed.
Lemma calm_steps : forall c st st', calm st st' -> st_out st' = st_out st -> own_steps c st st'.
Proof. intros c st st' C O. split; [apply calm_any, C|exact O]. Qed.
Lemma steps_trans : forall c a b d, own_steps c a b -> own_steps c b d -> own_steps c a d.
Proof. intros c a b d (K1 & O1) (K2 & O2). split; [eapply keeps_trans; eassumption|congruence]. Qed.
Lemma calm_work : forall g c q w f m st st', calm st st' -> sane st' -> at_work F g c q w f m st -> at_work F g c q w f m st'.
Proof.
  intros g c q w f m st st' C S [H1 H2 H3 H4 H5 H6 H7 H8]. pose proof (frame_exists _ _ _ _ H2) as X. pose proof C as (_ & _ & KV & _).
  constructor; [eapply world_calm; [exact C|apply S|apply S|exact H1]|eapply frame_calm; eassumption|eapply leaving_calm; eassumption| | | | |eapply loop_keeps; eassumption].
  - rewrite KV; [exact H4|exact X|intros []].
  - eapply word_keeps; try eassumption; intros u [].
  - rewrite KV; [exact H6|exact X|intros []].
  - rewrite KV; [exact H7|exact X|intros []].
Qed.
Lemma work_standard : forall g c q w f m st, at_work F g c q w f m st -> standard st c $"apply".
Proof.
  intros g c q w f m st [H1 H2 H3 H4 (M & H & i & v & fn & V & FN & B) H6 H7 H8]. exists fn. split; [exact B|]. destruct H2 as ((sc & HS & EG & _) & _). destruct H1 as (_ & _ & (gs & G & TR) & _).
  exists sc, gs, i, v. rewrite EG. repeat split; try assumption; try apply M; try apply FN. destruct H as [->|H].
  - apply se_own; [exists sc; exact HS|exact V].
  - eapply se_global; [exact HS|exact H| |rewrite EG; exact V]. rewrite EG. exists gs. exact G.
Qed.

(** ** The call of the function with the next element *)
Lemma is_str_settled : forall v t, is_str v t -> settled v.
Proof. intros v t [T _]. right. split; congruence. Qed.
Lemma is_fn_settled : forall v f, is_fn v f -> settled v.
Proof. intros v t [T _]. right. split; congruence. Qed.
Lemma nth_stands : forall st c w k v i j wk, asks_value st c -> is_int wk (Z.of_nat k) -> stands_at st w k v ->
  exists v', builtin_call $"nth" [P i (OVar wk); P j (OVar w)] c st (Val (Some v')) st /\ stands_at st w k v' /\ settled v'.
Proof.
  intros st c w k v i j wk AV WK [(l & es & e & IL & NE & EL & SE)|(t & ch & IS & NE & IV)].
  - destruct (nth_ok i wk (Z.of_nat k) (P j (OVar w)) es e v c st WK) as (r & B & ->); [exists j, w; eauto|lia|rewrite Nat2Z.id; exact NE|exact EL|exact AV|].
    exists v. split; [exact B|]. split; [left; exists l, es, e; auto|exact SE].
  - destruct (nth_string i wk (Z.of_nat k) j w t c st WK IS) as (NS & _). pose proof (proj1 (nth_error_Some t k) ltac:(congruence)) as LT.
    destruct NS as (r & B & IR); [lia|]. exists r. split; [exact B|]. rewrite Nat2Z.id in IR.
    assert (E : firstn 1 (skipn k t) = [ch]).
    { clear - NE. revert t NE. induction k as [|k IH]; intros [|a t] NE; try discriminate; cbn in *; [congruence|apply IH, NE]. }
    rewrite E in IR. split; [right; exists t, ch; auto|eapply is_str_settled; exact IR].
Qed.
Lemma sane_call : forall f a s st o st', calls f a s st o st' -> sane st -> heap_numbered st' -> sane st'.
Proof. intros f a s st o st' C [N _] H. split; [eapply calls_numbered; eassumption|exact H]. Qed.
Lemma ordinary_builtin : forall st s p name args args0 args1 st1 tok o st', form st p name tok args -> standard st s name -> option_map fn_sp (builtin_fn name) = Some false ->
  Forall2 (looked_up st s) args args0 -> evaluated s args0 (noted st s tok) args1 st1 ->
  evals p s st o st' <-> builtin_call name args1 s st1 o st'.
Proof.
  intros st s p name args args0 args1 st1 tok o st' FO (f & B & M) SP LU EV. rewrite B in SP. injection SP as SP. rewrite (ordinary_dispatch st s p name tok args args0 args1 st1 f o st' FO M SP LU EV).
  unfold builtin_call. rewrite B. split; [intro C; exists f; auto|]. intros (f' & E & C). injection E as <-. exact C.
Qed.
Lemma round_calls : forall g c q w f n k st v0 pa pf pl pn pi pk, at_work F g c q w f (counters k n) st -> stands_at st w k v0 ->
  code_of st pa $"apply" [pf; pl] -> expr_sym pf $"fcn" -> code_of st pl $"list" [pn] -> code_of st pn $"nth" [pi; pk] -> expr_sym pi $"__i" -> expr_sym pk $"container" ->
  exists i v st4, stands_at st4 w k v /\ calm st st4 /\ sane st4 /\ st_out st4 = st_out st /\
    forall o st', calls f [P i (OVar v)] c st4 o st' -> evals pa c st o st'.
Proof.
  intros g c q w f n k st v0 pa pf pl pn pi pk AW SA CA SF CL CN SI SK.
  pose proof AW as [W R L TR AP (SW & ci & VC) (fi & fv & VF & FN) CODE]. pose proof (frame_exists _ _ _ _ R) as X. pose proof (world_sane _ _ _ W) as S0.
  destruct (code_form _ _ _ _ CA) as (ta & FA). destruct (code_form _ _ _ _ CL) as (tl & FL). destruct (code_form _ _ _ _ CN) as (tn & FN').
  (* the place of the call of apply is noted *)
  set (sa := noted st c ta). assert (Ca : calm st sa) by apply calm_noted. assert (Sa : sane sa) by (apply sane_noted, S0). pose proof (calm_work _ _ _ _ _ _ _ _ Ca Sa AW) as AWa.
  set (sl := noted sa c tl). assert (Cl : calm st sl) by (eapply calm_trans; [exact Ca|apply calm_noted]). assert (Sl : sane sl) by (apply sane_noted, Sa). pose proof (calm_work _ _ _ _ _ _ _ _ Cl Sl AW) as AWl.
  set (sn := noted sl c tn). assert (Cn : calm st sn) by (eapply calm_trans; [exact Cl|apply calm_noted]). assert (Sn : sane sn) by (apply sane_noted, Sl). pose proof (calm_work _ _ _ _ _ _ _ _ Cn Sn AW) as AWn.
  assert (On : st_out sn = st_out st) by (unfold sn, sl, sa; rewrite !noted_out; reflexivity).
  (* (nth __i container) *)
  destruct AWl as [Wl Rl Ll TRl APl (_ & ci' & VCl) (fi' & fv' & VFl & _) CODEl]. pose proof (frame_exists _ _ _ _ Rl) as Xl.
  pose proof Rl as (_ & _ & VVl & _). destruct (VVl _ _ (counters_i k n)) as (ii & wi & VIl & NI). destruct (val_num _ _ _ NI) as (II & _).
  destruct (nth_stands sn c w k v0 ii ci' wi) as (v & BN & SV & SEV); [eapply frame_asks; apply AWn|exact II|eapply stands_keeps; [exact Cn|exact SA]|].
  assert (EN : evals pn c sl (Val (Some v)) sn).
  { eapply (ordinary_builtin sl c pn $"nth" [pi; pk] [P ii (OVar wi); P ci' (OVar w)] [P ii (OVar wi); P ci' (OVar w)] sn tn).
    - destruct CN as (i & l & j & h & -> & V & IS). destruct FN' as (j' & h' & EL & IS' & TK). exists j', h'. split; [|auto]. destruct EL as [(i' & l' & E' & V')|(i' & v' & l' & E' & _)]; [|discriminate]. left. exists i', l'. split; [exact E'|]. apply Cl. exact V'.
    - eapply word_standard; [exact Wl|exact Rl|vm_compute; tauto].
    - vm_compute; reflexivity.
    - constructor; [eapply lu_var; [exact SI|]; apply se_own; assumption|]. constructor; [eapply lu_var; [exact SK|]; apply se_own; assumption|constructor].
    - apply ev_value; [eapply val_settled; exact NI|]. apply ev_value; [exact SW|]. apply ev_nil.
    - exact BN. }
  set (e := P (st_nid sn) (OVar v)). set (sn' := with_nid (Pos.succ (st_nid sn)) sn). assert (Cn' : calm st sn') by (eapply calm_trans; [exact Cn|apply calm_nid]). assert (Sn' : sane sn') by (apply sane_nid, Sn).
  (* (list ...) *)
  destruct (list_ok [e] c sn' (proj2 Sn')) as (r & s3 & BL & (ll & LN & IL & UL) & AD & HN3).
  assert (C3 : calm st s3) by (eapply calm_trans; [exact Cn'|apply calm_adds, AD]). assert (S3 : sane s3) by (destruct BL as (fl & _ & BL); eapply sane_call; eassumption).
  destruct AWa as [Wa Ra La TRa APa _ _ CODEa].
  assert (EL : evals pl c sa (Val (Some r)) s3).
  { pose proof CN as (i & l & j & h & -> & _ & _).
    eapply (ordinary_builtin sa c pl $"list" [P i (OList l)] [P i (OList l)] [e] sn' tl).
    - destruct FL as (j' & h' & EL & IS' & TK). exists j', h'. split; [|auto]. destruct CL as (i' & l' & j0 & h0 & -> & V0 & _). destruct EL as [(i1 & l1 & E1 & V1)|(i1 & v1 & l1 & E1 & _)]; [|discriminate]. left. exists i1, l1. split; [exact E1|]. apply Ca. exact V1.
    - eapply word_standard; [exact Wa|exact Ra|vm_compute; tauto].
    - vm_compute; reflexivity.
    - constructor; [apply lu_list|constructor].
    - eapply ev_list; [exact EN|exact SEV|split; reflexivity|apply ev_nil].
    - exact BL. }
  set (st4 := with_nid (Pos.succ (st_nid s3)) s3). assert (C4 : calm st st4) by (eapply calm_trans; [exact C3|apply calm_nid]). assert (S4 : sane st4) by (apply sane_nid, S3).
  assert (C4n : calm sn st4) by (eapply calm_trans; [apply calm_nid|]; eapply calm_trans; [apply calm_adds, AD|apply calm_nid]).
  exists (st_nid sn), v, st4. split; [eapply stands_keeps; [exact C4n|exact SV]|]. split; [exact C4|]. split; [exact S4|].
  split. { destruct AD as (_ & _ & _ & AO & _). change (st_out st4) with (st_out s3). rewrite AO. exact On. }
  intros o st' CF. pose proof CL as (i & l & j & h & EP & _ & _). subst pl.
  eapply (ordinary_builtin st c pa $"apply" [pf; P i (OList l)] [P fi (OVar fv); P i (OList l)] [P fi (OVar fv); P (st_nid s3) (OVar r)] st4 ta).
  - exact FA.
  - eapply work_standard; exact AW.
  - vm_compute; reflexivity.
  - constructor; [eapply lu_var; [exact SF|]; apply se_own; assumption|]. constructor; [apply lu_list|constructor].
  - apply ev_value; [eapply is_fn_settled; exact FN|]. eapply ev_list; [exact EL|left; rewrite UL; discriminate|split; reflexivity|apply ev_nil].
  - destruct FN as [FT FO]. eapply (apply_calls (P fi (OVar fv)) (P (st_nid s3) (OVar r)) c st4 fv f st4 [e]); [apply eval_atom; congruence|split; assumption| |exact CF].
    exists (st_nid s3), r. split; [reflexivity|]. left. exists ll. exact IL.
Qed.
(** ** One round *)
(** An assignment: the value is computed in state [st1], then the variable changes. *)
Definition assigned (g s : sid) (st : state) (p : ptr) (m : store) (x : str) (v : value) (o : str) : Prop :=
  exists w st1 st2, evals p s st (Val (Some w)) st2 /\ val_is st1 w v /\ calm st st1 /\ sane st1 /\ st_out st1 = st_out st ++ o /\ var_becomes st1 st2 s x w /\
    after F g s st1 st2 (update m x v) false [].
Lemma set_exact : forall m x e v o g st s p, tidy F x -> m x <> None -> exp_fit F m e v o -> world F st g -> frame F st s g m -> leaving st s false -> stm_at st p (Set_ x e) ->
  assigned g s st p m x v o.
Proof.
  intros m x e v o g st s p T MX G W R L E. inversion E as [| | |p' px pe x' e' CO SX EE| | | | |]; subst. destruct (code_form _ _ _ _ CO) as (tok & FO).
  assert (ST : standard st s $"setf") by (eapply word_standard; try eassumption; vm_compute; tauto).
  pose proof (after_noted F g s st m false tok W R L) as (K0 & W0 & R0 & L0 & O0).
  destruct (G g _ s pe W0 R0 (exp_keeps _ _ _ _ _ _ K0 EE)) as (w & st1 & EV & VI & C1 & S1 & O1).
  pose proof (after_calm F g s _ st1 m false o W0 R0 L0 C1 S1 O1) as (_ & W1 & R1 & L1 & _). pose proof R1 as ((sc1 & H1 & _) & _ & VV & _).
  assert (AS : assigns st1 s x s). { destruct (m x) as [v0|] eqn:MV; [|congruence]. destruct (VV x v0 MV) as (i & w0 & V0 & _). eapply as_own; [exists sc1; exact H1|exact V0]. }
  destruct (set_assigns st1 s x s w (proj1 T) AS) as (st2 & K1 & K2).
  assert (EV2 : evals p s st (Val (Some w)) st2).
  { eapply mono_setf_tail; [exact FO|exact ST|exact SX|eapply exp_plain; exact EE|exact EV| |discriminate]. unfold bind. rewrite K1. reflexivity. }
  assert (AH : ahead st1 st2). { pose proof (rel_set_in_scopes ahead ahead_refl ahead_trans putting_ahead s x (P (st_nid st1) (OVar w)) (with_nid (Pos.succ (st_nid st1)) st1)) as Q. rewrite K1 in Q. exact Q. }
  assert (NU2 : numbered st2) by (eapply evals_numbered; [apply (world_sane _ _ _ W)|exact EV2]).
  exists w, st1, st2. split; [exact EV2|]. split; [exact VI|]. split; [eapply calm_trans; [apply calm_noted|exact C1]|]. split; [exact S1|]. split; [rewrite O1, noted_out; reflexivity|].
  split; [exact K2|]. exact (after_var F g s st1 st2 m false x v w W1 R1 L1 T VI K2 AH NU2).
Qed.
(** The value of the expression is known in the state in which it is evaluated. *)
Definition exp_here (g : sid) (s : sid) (st : state) (pe : ptr) (v : value) (o : str) : Prop := forall tok, 
  exists w st', evals pe s (noted st s tok) (Val (Some w)) st' /\ val_is st' w v /\ calm (noted st s tok) st' /\ sane st' /\ st_out st' = st_out st ++ o.
Lemma def_exact : forall m x v o g st s p px pe, tidy F x -> exp_here g s st pe v o -> world F st g -> frame F st s g m -> leaving st s false -> code_of st p $"def" [px; pe] -> expr_sym px x -> plain pe ->
  assigned g s st p m x v o.
Proof.
  intros m x v o g st s p px pe T G W R L CO SX PL. destruct (code_form _ _ _ _ CO) as (tok & FO).
  assert (ST : standard st s $"def") by (eapply word_standard; try eassumption; vm_compute; tauto).
  pose proof (after_noted F g s st m false tok W R L) as (K0 & W0 & R0 & L0 & O0).
  destruct (G tok) as (w & st1 & EV & VI & C1 & S1 & O1). assert (O1' : st_out st1 = st_out (noted st s tok) ++ o) by (rewrite noted_out; exact O1).
  pose proof (after_calm F g s _ st1 m false o W0 R0 L0 C1 S1 O1') as (_ & W1 & R1 & L1 & _). pose proof R1 as ((sc1 & H1 & _) & _).
  destruct (set_becomes st1 s x w sc1 H1) as [K1 K2]. set (st2 := snd (scope_set s x (P (st_nid st1) (OVar w)) (with_nid (Pos.succ (st_nid st1)) st1))) in *.
  assert (EV2 : evals p s st (Val (Some w)) st2).
  { pose proof ST as (f & SB & M). destruct (form_scope _ _ _ _ M) as (sc & H).
    eapply (def_tail BDef) with (tgt := s); [left; reflexivity|exact FO|exact ST|exact SX|exact PL|exact EV|exists sc; split; [exact H|reflexivity]| |discriminate].
    unfold bind. rewrite K1. reflexivity. }
  assert (AH : ahead st1 st2) by (exact (rel_scope_set ahead putting_ahead s x (P (st_nid st1) (OVar w)) (with_nid (Pos.succ (st_nid st1)) st1))).
  assert (NU2 : numbered st2) by (eapply evals_numbered; [apply (world_sane _ _ _ W)|exact EV2]).
  exists w, st1, st2. split; [exact EV2|]. split; [exact VI|]. split; [eapply calm_trans; [apply calm_noted|exact C1]|]. split; [exact S1|]. split; [exact O1|].
  split; [exact K2|]. exact (after_var F g s st1 st2 m false x v w W1 R1 L1 T VI K2 AH NU2).
Qed.
Lemma becomes_keeps : forall st st' s x w, var_becomes st st' s x w -> keeps no_scope (fun u n => u = s /\ n = x) st st'.
Proof. intros st st' s x w B. apply keeps_changes, (changes_becomes _ _ _ _ _ B). Qed.
Lemma becomes_steps : forall st st' c x w, In x [$"__i"; $"max"] -> var_becomes st st' c x w -> own_steps c st st'.
Proof.
  intros st st' c x w I B. split; [|apply B]. eapply keeps_weaken; [| |apply (becomes_keeps _ _ _ _ _ B)]; [auto|]. intros u n [-> ->]. auto.
Qed.
Lemma work_next : forall g c q w f m st st' x v i, In x [$"__i"; $"max"] -> at_work F g c q w f m st -> var_becomes st st' c x i -> after F g c st st' (update m x v) false [] ->
  at_work F g c q w f (update m x v) st'.
Proof.
  intros g c q w f m st st' x v i IX [H1 H2 H3 H4 H5 (SW & H6) H7 H8] B (_ & W & R & L & _). pose proof (becomes_keeps _ _ _ _ _ B) as K. pose proof B as (_ & V & _).
  assert (VO : forall y, ~ In y [$"__i"; $"max"] -> var_at st' c y = var_at st c y) by (intros y N; apply V; intro E; injection E as ->; contradiction).
  assert (NO : forall y, In y [$"###traceon###"; $"apply"; $"container"; $"fcn"; $"###macros###"] -> ~ In y [$"__i"; $"max"]).
  { intros y Y N. cbn [In] in Y, N. destruct N as [<-|[<-|[]]]; intuition discriminate. }
  constructor; try assumption.
  - rewrite VO by (apply NO; cbn; tauto). exact H4.
  - eapply word_keeps; [| |eapply frame_exists; exact H2|exact K|exact H5]; intros u [_ N]; subst x; eapply NO; try exact IX; cbn; tauto.
  - split; [exact SW|]. rewrite VO by (apply NO; cbn; tauto). exact H6.
  - rewrite VO by (apply NO; cbn; tauto). exact H7.
  - eapply loop_keeps; eassumption.
Qed.
Lemma work_store : forall g c q w f m m' st, (forall x v, m' x = Some v -> m x = Some v) -> at_work F g c q w f m st -> at_work F g c q w f m' st.
Proof. intros g c q w f m m' st E [H1 (A & B & C & D) H3 H4 H5 H6 H7 H8]. constructor; try assumption. repeat (split; try assumption). intros x v X. apply C, E, X. Qed.

(** ** The loop *)
Section Rule.
Variables (g c : sid) (q : pieces) (w : variant) (f : fnval) (n : nat) (I : nat -> state -> Prop).
Hypothesis TI : tidy F $"__i".
Hypothesis FN : fits (Z.of_nat n).
Hypothesis ISTEPS : forall k a b, I k a -> own_steps c a b -> I k b.
Hypothesis IELEM : forall k st, (k < n)%nat -> at_work F g c q w f (counters k n) st -> I k st -> exists v, stands_at st w k v.
Hypothesis ICALL : forall k st v i, (k < n)%nat -> at_work F g c q w f (counters k n) st -> I k st -> stands_at st w k v ->
  exists r st', calls f [P i (OVar v)] c st (Val r) st' /\ at_work F g c q w f (counters k n) st' /\ I (S k) st'.
Lemma condition : forall k, exp_fit F (counters k n) (Prim $"<" [Name $"__i"; Name $"max"]) (BoolV (Z.ltb (Z.of_nat k) (Z.of_nat n))) [].
Proof.
  intro k. apply exp_fits, (proj1 (all_good F)). apply yi_prim with (vs := [NumV (Z.of_nat k); NumV (Z.of_nat n)]).
  - apply (ya_cons F _ _ _ _ _ [] []); [apply yi_name, counters_i|]. apply (ya_cons F _ _ _ _ _ [] []); [apply yi_name, counters_max|apply ya_nil].
  - apply (pr_op Less). constructor.
Qed.
Lemma increment : forall k, (k < n)%nat -> exp_fit F (counters k n) (Prim $"+" [Name $"__i"; Const (NumV 1)]) (NumV (Z.of_nat (S k))) [].
Proof.
  intros k LT. apply exp_fits, (proj1 (all_good F)). apply yi_prim with (vs := [NumV (Z.of_nat k); NumV 1]).
  - apply (ya_cons F _ _ _ _ _ [] []); [apply yi_name, counters_i|]. apply (ya_cons F _ _ _ _ _ [] []); [apply yi_const|apply ya_nil].
  - replace (Z.of_nat (S k)) with (Z.of_nat k + 1)%Z by lia. apply (pr_op Add). constructor. unfold fits in *. lia.
Qed.
Lemma one_round : forall k st, (k < n)%nat -> at_work F g c q w f (counters k n) st -> I k st ->
  exists v r st1 st2, evals (the_condition q) c st (Val (Some v)) st1 /\ truth v true /\ evals (the_body q) c st1 (Val (Some r)) st2 /\ is_int r (Z.of_nat (S k)) /\
    at_work F g c q w f (counters (S k) n) st2 /\ I (S k) st2.
Proof.
  intros k st LT AW IK. pose proof AW as [W R L TR AP WC WF (CC & CB & (pf & pl & pn & pi & pk & CA & SF & CL & CN & SI & SK) & SS)].
  destruct (condition k g st c _ W R CC) as (b & st1 & EC & VB & C1 & S1 & O1). rewrite app_nil_r in O1. pose proof (val_bool _ _ _ VB) as IB.
  assert (TB : truth b true). { replace true with (Z.ltb (Z.of_nat k) (Z.of_nat n)) by (apply Z.ltb_lt; lia). apply tr_bool. exact IB. }
  pose proof (calm_work _ _ _ _ _ _ _ _ C1 S1 AW) as AW1. pose proof (ISTEPS _ _ _ IK (calm_steps c _ _ C1 O1)) as I1.
  pose proof (code_keeps _ _ _ _ _ _ _ C1 CB) as CB1. destruct (code_form _ _ _ _ CB1) as (tok & FB).
  set (s2 := noted st1 c tok). assert (C2 : calm st1 s2) by apply calm_noted. assert (S2 : sane s2) by (apply sane_noted, S1).
  pose proof (calm_work _ _ _ _ _ _ _ _ C2 S2 AW1) as AW2. assert (I2 : I k s2) by (eapply ISTEPS; [exact I1|]; apply calm_steps; [exact C2|apply noted_out]).
  assert (C02 : calm st s2) by (eapply calm_trans; eassumption).
  destruct (IELEM k s2 LT AW2 I2) as (v0 & SA).
  destruct (round_calls g c q w f n k s2 v0 (the_call q) pf pl pn pi pk AW2 SA) as (i & v & s3 & SV & C3 & S3 & O3 & RUN);
    try assumption; try (eapply code_keeps; [exact C02|assumption]).
  pose proof (calm_work _ _ _ _ _ _ _ _ C3 S3 AW2) as AW3. pose proof (ISTEPS _ _ _ I2 (calm_steps c _ _ C3 O3)) as I3.
  destruct (ICALL k s3 v i LT AW3 I3 SV) as (r & s4 & CF & AW4 & I4). apply RUN in CF.
  pose proof AW4 as [W4 R4 L4 _ _ _ _ (_ & _ & _ & SS4)].
  destruct (set_exact (counters k n) $"__i" _ (NumV (Z.of_nat (S k))) [] g s4 c (the_step q) TI ltac:(rewrite counters_i; discriminate) (increment k LT) W4 R4 L4 SS4)
    as (wi & s5 & s6 & ES & VS & C5 & S5 & O5 & BE & AF).
  rewrite app_nil_r in O5. pose proof (calm_work _ _ _ _ _ _ _ _ C5 S5 AW4) as AW5. pose proof (ISTEPS _ _ _ I4 (calm_steps c _ _ C5 O5)) as I5.
  pose proof (work_next _ _ _ _ _ _ _ _ _ _ _ (or_introl eq_refl) AW5 BE AF) as AW6'.
  assert (AW6 : at_work F g c q w f (counters (S k) n) s6).
  { eapply work_store; [|exact AW6']. intros x y. unfold update, counters. destruct (list_eq_dec ascii_dec x $"__i"); auto. }
  assert (I6 : I (S k) s6) by (eapply ISTEPS; [exact I5|]; eapply becomes_steps; [|exact BE]; left; reflexivity).
  exists b, wi, st1, s6. split; [exact EC|]. split; [exact TB|]. split; [|split; [eapply val_num; exact VS|split; [exact AW6|exact I6]]].
  assert (ST : standard st1 c $"do") by (eapply word_standard; [apply AW1|apply AW1|vm_compute; tauto]).
  pose proof CA as (i1 & l1 & _ & _ & E1 & _). assert (E2 : exists i2 l2, the_step q = P i2 (OList l2)).
  { inversion SS as [| | |? ? ? ? ? CO _ _| | | | |]; subst. destruct CO as (i2 & l2 & _ & _ & E2 & _). eauto. }
  destruct E2 as (i2 & l2 & E2). apply (do_value st1 c (the_body q) $"do" tok [the_call q; the_step q] ltac:(left; reflexivity) FB ST).
  { rewrite E1, E2. repeat constructor. }
  rewrite E1, E2 in *. eapply sq_next; [exact CF|exact L4|]. eapply sq_next; [exact ES|apply AW6|apply sq_end].
Qed.
Lemma rounds_rule : forall d k st r0, (k + d = n)%nat -> at_work F g c q w f (counters k n) st -> I k st ->
  exists r st', rounds_of (the_condition q) (the_body q) c d r0 st r st' /\ at_work F g c q w f (counters n n) st' /\ I n st' /\ match d with O => r = r0 | _ => exists v, r = Some v /\ is_int v (Z.of_nat n) end.
Proof.
  induction d as [|d IH]; intros k st r0 E AW IK.
  - assert (k = n) by lia. subst k. pose proof AW as [W R L TR AP WC WF (CC & _)].
    destruct (condition n g st c _ W R CC) as (b & st1 & EC & VB & C1 & S1 & O1). rewrite app_nil_r in O1. pose proof (val_bool _ _ _ VB) as IB.
    exists r0, st1. split; [eapply ro_end; [exact EC|]; rewrite <- (Z.ltb_irrefl (Z.of_nat n)); apply tr_bool; exact IB|].
    split; [eapply calm_work; eassumption|]. split; [eapply ISTEPS; [exact IK|apply calm_steps; assumption]|reflexivity].
  - destruct (one_round k st ltac:(lia) AW IK) as (v & r & st1 & st2 & EC & TV & EB & IR & AW2 & I2).
    destruct (IH (S k) st2 (Some r) ltac:(lia) AW2 I2) as (r' & st' & RO & AW' & I' & RV).
    exists r', st'. split; [eapply ro_more; [exact EC|exact TV|exact EB|apply AW2|exact RO]|]. split; [exact AW'|]. split; [exact I'|].
    destruct d; [|exact RV]. subst r'. exists r. split; [reflexivity|]. assert (S k = n) by lia. congruence.
Qed.
Lemma loop_rule : forall p st, code_of st p $"while" [the_condition q; the_body q] -> at_work F g c q w f (counters 0 n) st -> I 0%nat st ->
  exists r st', evals p c st (Val r) st' /\ at_work F g c q w f (counters n n) st' /\ I n st' /\ loop_value n r.
Proof.
  intros p st CW AW I0. destruct (code_form _ _ _ _ CW) as (tok & FO). assert (ST : standard st c $"while") by (eapply word_standard; [apply AW|apply AW|vm_compute; tauto]).
  pose proof AW as [W _ _ _ _ _ _ (CC & CB & _)].
  assert (C1 : calm st (noted st c tok)) by apply calm_noted. assert (S1 : sane (noted st c tok)) by (apply sane_noted; eapply world_sane; exact W).
  destruct (rounds_rule n 0 (noted st c tok) (Some vundef) ltac:(lia) (calm_work _ _ _ _ _ _ _ _ C1 S1 AW)) as (r & st' & RO & AW' & I' & RV).
  { eapply ISTEPS; [exact I0|apply calm_steps; [exact C1|apply noted_out]]. }
  exists r, st'. split; [|split; [exact AW'|split; [exact I'|]]].
  - apply (while_value st c p tok _ _ FO ST); [|exists n; exact RO]. constructor; [eapply exp_plain; exact CC|]. constructor; [|constructor]. destruct CB as (i & l & _ & _ & -> & _). exact Logic.I.
  - unfold loop_value. destruct n; [subst r; exists vundef; split; reflexivity|]. exact RV.
Qed.
End Rule.
(** ** The function *)
Lemma counts_keeps : forall A W st st' w n, keeps A W st st' -> counts st w n -> counts st' w n.
Proof. intros A W st st' w n (KL & _) [(l & es & (T & V & L) & H)|H]; [left|right; exact H]. exists l, es. split; [|exact H]. repeat split; auto. Qed.
Lemma counts_settled : forall st w n, counts st w n -> settled w.
Proof. intros st w n [(l & es & _ & _ & U)|(t & IS & _)]; [left; exact U|eapply is_str_settled; exact IS]. Qed.
Lemma len_counts : forall st w n i s, counts st w n -> fits (Z.of_nat n) -> builtin_pure $"len" [P i (OVar w)] s st (fun r => is_int r (Z.of_nat n)).
Proof.
  intros st w n i s [(l & es & IL & <- & _)|(t & IS & <-)] FI; unfold fits in FI.
  - apply len_ok; [exists i, w; eauto|lia].
  - apply seq_strings; [exact IS|lia].
Qed.
Lemma len_here : forall g c q w f m st pe pk n, at_work F g c q w f m st -> counts st w n -> fits (Z.of_nat n) -> code_of st pe $"len" [pk] -> expr_sym pk $"container" ->
  exp_here g c st pe (NumV (Z.of_nat n)) [].
Proof.
  intros g c q w f m st pe pk n AW CO FI CE SK tok. set (s1 := noted st c tok). assert (C1 : calm st s1) by apply calm_noted.
  assert (S1 : sane s1) by (apply sane_noted; eapply world_sane; apply AW). pose proof (calm_work _ _ _ _ _ _ _ _ C1 S1 AW) as [W R L TR AP (SW & ci & VC) WF CODE].
  destruct (code_form _ _ _ _ (code_keeps _ _ _ _ _ _ _ C1 CE)) as (t1 & FO). set (s2 := noted s1 c t1). assert (C2 : calm s1 s2) by apply calm_noted.
  destruct (len_counts s2 w n ci c (counts_keeps _ _ _ _ _ _ C2 (counts_keeps _ _ _ _ _ _ C1 CO)) FI) as (r & B & IR). exists r, s2.
  split. { eapply (ordinary_builtin s1 c pe $"len" [pk] [P ci (OVar w)] [P ci (OVar w)] s2 t1); [exact FO|eapply word_standard; [exact W|exact R|vm_compute; tauto]|vm_compute; reflexivity| | |exact B].
    - constructor; [eapply lu_var; [exact SK|]; apply se_own; [eapply frame_exists; exact R|exact VC]|constructor].
    - apply ev_value; [exact SW|apply ev_nil]. }
  split; [apply vi_num; assumption|]. split; [exact C2|]. split; [apply sane_noted, S1|]. unfold s2, s1. rewrite !noted_out, app_nil_r. reflexivity.
Qed.
Lemma good_here : forall g s st m pe e v o, exp_fit F m e v o -> world F st g -> frame F st s g m -> exp_at st pe e -> exp_here g s st pe v o.
Proof.
  intros g s st m pe e v o G W R E tok. assert (C1 : calm st (noted st s tok)) by apply calm_noted. assert (S1 : sane (noted st s tok)) by (apply sane_noted; eapply world_sane; exact W).
  destruct (G g (noted st s tok) s pe) as (w & st' & EV & VI & C & S & O); [eapply world_calm; [exact C1|apply S1|apply S1|exact W]|eapply frame_calm; eassumption|eapply exp_keeps; eassumption|].
  exists w, st'. rewrite noted_out in O. auto.
Qed.
Lemma body_rule : forall g c p q w f n I st, tidy F $"__i" -> tidy F $"max" -> fits (Z.of_nat n) -> carries F g c q w f n I -> at_work F g c q w f empty_store st -> counts st w n -> foreach_code st p q -> I 0%nat st ->
  exists r st', evals p c st (Val r) st' /\ at_work F g c q w f (counters n n) st' /\ I n st' /\ loop_value n r.
Proof.
  intros g c p q w f n I st T1 T2 FI (HS & HE & HC) AW CO (p1 & p2 & p3 & px & pe & pk & CD & S1 & CM & SX & CL & SK & CW & _) I0.
  destruct (code_form _ _ _ _ CD) as (tok & FO). assert (ST : standard st c $"do") by (eapply word_standard; [apply AW|apply AW|vm_compute; tauto]).
  set (s0 := noted st c tok). assert (C0 : calm st s0) by apply calm_noted. assert (A0 : sane s0) by (apply sane_noted; eapply world_sane; apply AW).
  pose proof (calm_work _ _ _ _ _ _ _ _ C0 A0 AW) as AW0. assert (I0' : I 0%nat s0) by (eapply HS; [exact I0|apply calm_steps; [exact C0|apply noted_out]]).
  (* (def __i 0) *)
  inversion S1 as [| |? px1 pe1 ? ? CO1 SX1 EE1| | | | | |]; subst.
  destruct (def_exact empty_store $"__i" (NumV 0) [] g s0 c p1 px1 pe1) as (w1 & s1 & s2 & EV1 & _ & C1 & A1 & O1 & B1 & AF1);
    [exact T1|eapply good_here; [apply exp_fits, good_const|apply AW0|apply AW0|eapply exp_keeps; [exact C0|exact EE1]]|apply AW0|apply AW0|apply AW0|eapply code_keeps; [exact C0|exact CO1]|exact SX1|eapply exp_plain; exact EE1|].
  rewrite app_nil_r in O1. pose proof (calm_work _ _ _ _ _ _ _ _ C1 A1 AW0) as AW1. pose proof (work_next _ _ _ _ _ _ _ _ _ _ _ (or_introl eq_refl) AW1 B1 AF1) as AW2.
  assert (I2 : I 0%nat s2). { eapply HS; [|eapply becomes_steps; [left; reflexivity|exact B1]]. eapply HS; [exact I0'|apply calm_steps; assumption]. }
  pose proof AF1 as (K12 & _). assert (K02 : keeps (eq c) (its_variables F c) st s2) by (eapply keeps_trans; [apply calm_any, C0|]; eapply keeps_trans; [apply calm_any, C1|exact K12]).
  (* (def max (len container)) *)
  destruct (def_exact (update empty_store $"__i" (NumV 0)) $"max" (NumV (Z.of_nat n)) [] g s2 c p2 px pe) as (w2 & s3 & s4 & EV2 & _ & C3 & A3 & O3 & B3 & AF3);
    [exact T2|eapply len_here; [exact AW2|eapply counts_keeps; [exact K02|exact CO]|exact FI|eapply code_keeps; [exact K02|exact CL]|exact SK]|apply AW2|apply AW2|apply AW2|eapply code_keeps; [exact K02|exact CM]|exact SX| |].
  { destruct CL as (i & l & _ & _ & -> & _). exact Logic.I. }
  rewrite app_nil_r in O3. pose proof (calm_work _ _ _ _ _ _ _ _ C3 A3 AW2) as AW3. pose proof (work_next _ _ _ _ _ _ _ _ _ _ _ (or_intror (or_introl eq_refl)) AW3 B3 AF3) as AW4'.
  assert (AW4 : at_work F g c q w f (counters 0 n) s4).
  { eapply work_store; [|exact AW4']. intros x v. unfold counters, update. destruct (list_eq_dec ascii_dec x $"__i") as [->|]; [|destruct (list_eq_dec ascii_dec x $"max"); intro E; congruence].
    intro E. destruct (list_eq_dec ascii_dec $"__i" $"max") as [E'|_]; [discriminate E'|exact E]. }
  assert (I4 : I 0%nat s4). { eapply HS; [|eapply becomes_steps; [right; left; reflexivity|exact B3]]. eapply HS; [exact I2|apply calm_steps; assumption]. }
  pose proof AF3 as (K34 & _). assert (K04 : keeps (eq c) (its_variables F c) st s4) by (eapply keeps_trans; [exact K02|]; eapply keeps_trans; [apply calm_any, C3|exact K34]).
  destruct (loop_rule g c q w f n I T1 FI HS HE HC p3 s4 (code_keeps _ _ _ _ _ _ _ K04 CW) AW4 I4) as (r & st' & EV3 & AW' & I' & LV).
  exists r, st'. split; [|split; [exact AW'|split; [exact I'|exact LV]]].
  pose proof CO1 as (i1 & l1 & _ & _ & E1 & _). pose proof CM as (i2 & l2 & _ & _ & E2 & _). pose proof CW as (i3 & l3 & _ & _ & E3 & _). subst p1 p2 p3.
  apply (do_value st c p $"do" tok _ ltac:(left; reflexivity) FO ST); [repeat constructor|].
  eapply sq_next; [exact EV1|apply AW2|]. eapply sq_next; [exact EV2|apply AW4|]. eapply sq_next; [exact EV3|apply AW'|apply sq_end].
Qed.
Lemma foreach_rule : forall g s st fn q i w j fv f n (I : sid -> nat -> state -> Prop), callable F st s g -> is_foreach st fn q -> is_fn fv f -> counts st w n -> fits (Z.of_nat n) ->
  (forall c, scope_at st c = None -> carries F g c q w f n (I c) /\ I c 0%nat st) ->
  exists c r st', calls fn [P i (OVar w); P j (OVar fv)] s st (Val r) st' /\ scope_at st c = None /\ I c n st' /\ loop_value n r /\ world F st' g.
Proof.
  intros g s st fn q i w j fv f n I (W & (sc & H & EG) & WA & FA & TN) (name & modname & fp & body & more & ds & CD & XD & PA & FC) IF CO FI HI.
  pose proof W as (NU & HN & (gs & G & TG) & MA & _).
  destruct (closure_enters st s sc ds name modname fp body more [P i (OVar w); P j (OVar fv)] [$"container"; $"fcn"] H NU HN) as (st1 & c & SC & NU1 & HN1 & EC & RUN);
    [rewrite EG; eapply exists_at; exact G|apply asks_exists; exact XD|exact PA|].
  pose proof (calm_starts _ _ _ _ _ _ _ _ SC) as C1. destruct SC as (FR & (sc' & csc & fill & H' & HS & HC & N1 & N2 & N3 & N4 & N5 & (N6 & NLV) & N7 & N8 & N9 & N10 & N11 & N12) & OT & REST).
  assert (sc' = sc) by congruence. subst sc'. assert (NSC : s <> c) by congruence. destruct (HI c FR) as (CA & I0).
  assert (W1 : world F st1 g) by (eapply world_calm; [exact C1|assumption|assumption|exact W]).
  rewrite Forall_forall in TN. assert (TX : forall x, In x [$"container"; $"fcn"] -> tidy F x) by (intros x X; apply TN; cbn [In foreach_names] in *; tauto).
  assert (VNONE : forall m, ~ In m [$"container"; $"fcn"; $"###args###"; $"_additionalArgs"] -> var_at st1 c m = None) by (intros m M; apply N12; [intros [E|[E|[]]]; apply M; subst m|intro E; apply M; subst m|intro E; apply M; subst m]; cbn [In]; tauto).
  assert (fill = []) by (destruct fill; [reflexivity|discriminate N7]). subst fill.
  assert (VC : var_at st1 c $"container" = Some (P i (OVar w))) by (apply (N9 0%nat); [reflexivity|reflexivity|cbn; intuition discriminate|discriminate|discriminate]).
  assert (VF : var_at st1 c $"fcn" = Some (P j (OVar fv))) by (apply (N9 1%nat); [reflexivity|reflexivity|cbn; intuition discriminate|discriminate|discriminate]).
  assert (TR : var_at st1 c $"###traceon###" = None) by (apply VNONE; cbn; intuition discriminate).
  destruct FC as (p1 & p2 & p3 & px & pe & pk & CD0 & CD1 & CD2 & CD3 & CD4 & CD5 & CD6 & CD7).
  assert (AW1 : at_work F g c q w f empty_store st1).
  { constructor.
    - exact W1.
    - split; [|split; [|split; [intros x v E; discriminate E|left; exact TR]]].
      + exists csc. split; [exact HC|]. split; [congruence|]. destruct XD as (dsc & HD & ND). rewrite (NLV _ HD). exact ND.
      + intros m FM. right. destruct (MA m FM) as [_ NP]. apply VNONE. intro E. cbn [In] in E. destruct E as [E|[E|[E|[E|[]]]]]; subst m.
        * destruct (TX $"container") as (_ & A & _ & B); [cbn [In]; tauto|]. destruct FM; [contradiction|congruence].
        * destruct (TX $"fcn") as (_ & A & _ & B); [cbn [In]; tauto|]. destruct FM; [contradiction|congruence].
        * apply NP. vm_compute. tauto.
        * apply NP. vm_compute. tauto.
    - exists csc. auto.
    - exact TR.
    - destruct WA as (M & _ & ii & v & b & V & FN & B). split; [eapply no_macro_keeps; [| |exact C1|exact M]; intros u []|]. split; [right; apply VNONE; cbn; intuition discriminate|].
      exists ii, v, b. split; [|auto]. destruct C1 as (_ & _ & KV & _). rewrite KV; [exact V|eapply exists_at; exact G|intros []].
    - split; [eapply counts_settled; exact CO|exists i; exact VC].
    - exists j, fv. auto.
    - eapply loop_keeps; [exact C1|exact CD7]. }
  destruct (body_rule g c body q w f n (I c) st1) as (r & st2 & EV & AW2 & I2 & LV); try assumption; try (apply TN; cbn [In foreach_names]; tauto).
  { eapply counts_keeps; [exact C1|exact CO]. }
  { exists p1, p2, p3, px, pe, pk. repeat split; try assumption; try (eapply code_keeps; [exact C1|assumption]); try (eapply loop_keeps; [exact C1|exact CD7]). eapply stm_keeps; [exact C1|exact CD1]. }
  { apply (proj1 CA _ _ _ I0). apply calm_steps; [exact C1|]. apply REST. }
  destruct (frame_evals _ _ _ _ _ NU1 EV _ _ HS) as (sc2 & S2 & _ & _ & _ & _ & V & _). destruct (V NSC) as (vv & ->).
  destruct (frame_evals _ _ _ _ _ NU1 EV _ _ HC) as (csc2 & C2 & _). destruct (pop_unlinks st2 s c _ _ NSC S2 eq_refl C2) as (st' & P1 & P2).
  exists c, r, st'. split; [|split; [exact FR|split; [|split; [exact LV|]]]].
  - destruct EV as (k & EV & _). exists (S k). split; [|discriminate]. cbn [run step r_call]. unfold call. rewrite CD, RUN. unfold bind at 1, try_catch. rewrite EV. unfold bind. rewrite P1. reflexivity.
  - apply (proj1 CA _ _ _ I2). apply calm_steps; [eapply calm_unlinked; exact P2|]. destruct P2 as (x1 & x2 & _ & _ & ->). reflexivity.
  - assert (S' : sane st') by (eapply sane_unlinked; [exact P2|eapply world_sane; apply AW2]). eapply world_calm; [eapply calm_unlinked; exact P2|apply S'|apply S'|apply AW2].
Qed.
(** ** Functions that only print *)
Lemma fresh_calm : forall c st a b, scope_at st c = None -> calm st a -> own_steps c a b -> calm st b.
Proof.
  intros c st a b FR C (K & _). assert (K' : keeps no_scope (fun u n => u = c /\ In n [$"__i"; $"max"]) st b) by (eapply keeps_trans; [apply calm_any, C|exact K]).
  destruct K' as (V & S & N & R). split; [exact V|]. split; [exact S|]. split; [|exact R]. intros u n (sc & H) _. apply N; [exists sc; exact H|]. intros [-> _]. congruence.
Qed.
Lemma val_counts : forall st w v, val_is st w v -> iterable v -> counts st w (length (elements v)).
Proof.
  intros st w v VI IT. destruct VI as [| |w t IS|w l ps vs IL U VS|]; try contradiction; cbn [elements].
  - right. exists t. split; [exact IS|]. rewrite map_length. reflexivity.
  - left. exists l, ps. split; [exact IL|]. split; [|exact U]. apply vals_length in VS. congruence.
Qed.
Lemma val_stands : forall st w v k x, val_is st w v -> stands_at st w k x -> exists u, nth_error (elements v) k = Some u /\ val_is st x u.
Proof.
  intros st w v k x VI [(l & es & e & (T & V & L) & NE & EL & SE)|(t & ch & (T & V) & NE & IS)].
  - inversion VI as [w0 z [T0 _]|w0 b [T0 _]|w0 t [T0 _]|w0 l0 ps vs (T0 & V0 & L0) U VS|w0 T0]; subst; try congruence. assert (l0 = l) by congruence. subst l0. assert (ps = es) by congruence. subst ps. clear - VS NE EL. cbn [elements].
    revert k NE. induction VS as [|i y u ps vs VY VS IH]; intros [|k] NE; try discriminate; cbn [nth_error] in *; [injection NE as <-; inversion EL; subst; eauto|apply IH, NE].
  - inversion VI as [w0 z [T0 _]|w0 b [T0 _]|w0 t0 [T0 V0]|w0 l0 ps vs (T0 & _) U VS|w0 T0]; subst; try congruence. assert (t0 = t) by congruence. subst t0. exists (TextV [ch]).
    split; [cbn [elements]; rewrite nth_error_map, NE; reflexivity|apply vi_text; exact IS].
Qed.
Lemma val_has : forall st w v k, val_is st w v -> iterable v -> (k < length (elements v))%nat -> exists x, stands_at st w k x.
Proof.
  intros st w v k VI IT LT. destruct (nth_error (elements v) k) as [u|] eqn:NE; [|apply nth_error_None in NE; lia].
  destruct VI as [| |w t IS|w l ps vs IL U VS|]; try contradiction; cbn [elements] in *.
  - rewrite nth_error_map in NE. destruct (nth_error t k) as [ch|] eqn:NT; [|discriminate]. exists (vstr [ch]). right. exists t, ch. split; [exact IS|]. split; [exact NT|apply vstr_is].
  - destruct (vals_nth _ _ _ _ _ VS NE) as (i & x & NP & VX). exists x. left. exists l, ps, (P i (OVar x)). split; [exact IL|]. split; [exact NP|]. split; [constructor|eapply val_settled; exact VX].
Qed.
Lemma all2_length : forall (A B : Type) (R : A -> B -> Prop) l l', Forall2 R l l' -> length l = length l'.
Proof. intros A B R l l' H. induction H; cbn; congruence. Qed.
Lemma firstn_next : forall (A : Type) (l : list A) k a, nth_error l k = Some a -> firstn (S k) l = firstn k l ++ [a].
Proof. intros A l. induction l as [|b l IH]; intros [|k] a H; try discriminate; cbn in *; [congruence|rewrite (IH k a H); reflexivity]. Qed.
Definition prints_so (g : sid) (st : state) (f : fnval) (v : value) (os : list str) : Prop :=
  forall k u o, nth_error (elements v) k = Some u -> nth_error os k = Some o -> forall c m st1 y x, calm st st1 -> world F st1 g -> frame F st1 c g m -> var_at st1 c $"###traceon###" = None -> val_is st1 x u ->
    exists r st2, calls f [P y (OVar x)] c st1 (Val r) st2 /\ calm st1 st2 /\ sane st2 /\ st_out st2 = st_out st1 ++ o.
Lemma prints_carries : forall g st q w v f os, val_is st w v -> iterable v -> length os = length (elements v) -> prints_so g st f v os ->
  forall c, scope_at st c = None -> carries F g c q w f (length (elements v)) (fun k st' => calm st st' /\ st_out st' = st_out st ++ concat (firstn k os)) /\ calm st st /\ st_out st = st_out st ++ concat (firstn 0 os).
Proof.
  intros g st q w v f os VI IT LO HF c FR. split; [|split; [apply calm_refl|cbn; rewrite app_nil_r; reflexivity]]. split; [|split].
  - intros k a b (C & O) ST. split; [eapply fresh_calm; eassumption|]. destruct ST as (_ & ->). exact O.
  - intros k st1 LT AW (C & O). destruct (val_has st w v k VI IT LT) as (x & SX). exists x. eapply stands_keeps; [exact C|exact SX].
  - intros k st1 x y LT AW (C & O) SX. destruct (val_stands st1 w v k x (val_keeps _ _ _ _ _ _ C VI) SX) as (u & NU & VX).
    destruct (nth_error os k) as [o|] eqn:NO; [|apply nth_error_None in NO; lia].
    destruct (HF k u o NU NO c _ st1 y x C (aw_world _ _ _ _ _ _ _ _ AW) (aw_frame _ _ _ _ _ _ _ _ AW) (aw_trace _ _ _ _ _ _ _ _ AW) VX) as (r & st2 & CL & C2 & S2 & O2).
    exists r, st2. split; [exact CL|]. split; [eapply calm_work; eassumption|]. split; [eapply calm_trans; eassumption|].
    rewrite O2, O, (firstn_next _ _ _ _ NO), concat_app, <- app_assoc. cbn [concat]. rewrite app_nil_r. reflexivity.
Qed.
Lemma foreach_prints : forall g s st fn q i w v j fv f os, callable F st s g -> is_foreach st fn q -> is_fn fv f -> val_is st w v -> iterable v -> short (elements v) -> length os = length (elements v) ->
  prints_so g st f v os ->
  exists r st', calls fn [P i (OVar w); P j (OVar fv)] s st (Val r) st' /\ calm st st' /\ world F st' g /\ st_out st' = st_out st ++ concat os /\ loop_value (length (elements v)) r.
Proof.
  intros g s st fn q i w v j fv f os CA FE IF VI IT SH LO HF.
  destruct (foreach_rule g s st fn q i w j fv f (length (elements v)) (fun c k st' => calm st st' /\ st_out st' = st_out st ++ concat (firstn k os)) CA FE IF (val_counts _ _ _ VI IT)) as (c & r & st' & CL & FR & (C & O) & LV & W').
  - unfold fits, short in *. lia.
  - apply prints_carries; assumption.
  - exists r, st'. split; [exact CL|]. split; [exact C|]. split; [exact W'|]. split; [|exact LV]. rewrite O, firstn_all2 by lia. reflexivity.
Qed.
Lemma println_so : forall g st f v ts, builtin_fn $"println" = Some f -> Forall2 (fun u t => text_of u = Some t) (elements v) ts -> prints_so g st f v (map line ts).
Proof.
  intros g st f v ts BF TS k u o NU NO c m st1 y x C W R TR VX. rewrite nth_error_map in NO. destruct (nth_error ts k) as [t|] eqn:NT; [|discriminate]. injection NO as <-.
  assert (TX : text_of u = Some t). { clear - TS NU NT. revert k NU NT. induction TS as [|a b l l' H TS IH]; intros [|k] NU NT; try discriminate; cbn in *; [congruence|eapply IH; eassumption]. }
  assert (SHW : Forall2 (shows c st1) [P y (OVar x)] [t]) by (constructor; [eapply text_shown; [apply W|exact VX|exact TX]|constructor]).
  destruct (println_ok c st1 _ _ (frame_exists _ _ _ _ R) TR SHW) as (r & (f' & BF' & K) & _). rewrite line_one in K. assert (f' = f) by congruence. subst f'.
  exists (Some r), (written_out st1 (t ++ [c_nl])). split; [exact K|]. split; [apply calm_out|]. split; [apply sane_out; eapply world_sane; exact W|reflexivity].
Qed.
Lemma foreach_println : forall g s st fn q i w v j fv f ts, callable F st s g -> is_foreach st fn q -> is_fn fv f -> builtin_fn $"println" = Some f -> val_is st w v -> iterable v -> short (elements v) ->
  Forall2 (fun u t => text_of u = Some t) (elements v) ts ->
  exists r st', calls fn [P i (OVar w); P j (OVar fv)] s st (Val r) st' /\ calm st st' /\ world F st' g /\ st_out st' = st_out st ++ concat (map line ts) /\ loop_value (length (elements v)) r.
Proof.
  intros g s st fn q i w v j fv f ts CA FE IF BF VI IT SH TS. eapply foreach_prints; try eassumption; [|apply println_so; assumption].
  rewrite map_length. symmetry. eapply all2_length; exact TS.
Qed.
Lemma foreach_calls : forall g s st fn q i w v j h fv f x b os, callable F st s g -> is_foreach st fn q -> F h = Some ([x], b) -> tidy F x -> var_at st g h = Some (P j (OVar fv)) -> is_fn fv f ->
  val_is st w v -> iterable v -> short (elements v) ->
  Forall2 (fun u o => exists m' z r, does F (parameters_of [x] [u]) b m' z r o /\ z <> Nothing) (elements v) os ->
  exists r st', calls fn [P i (OVar w); P j (OVar fv)] s st (Val r) st' /\ calm st st' /\ world F st' g /\ st_out st' = st_out st ++ concat os /\ loop_value (length (elements v)) r.
Proof.
  intros g s st fn q i w v j h fv f x b os CA FE FH TX VH IF VI IT SH OS. eapply foreach_prints; try eassumption.
  - symmetry. eapply all2_length; exact OS.
  - intros k u o NU NO c m st1 y z C W R TR VX.
    assert (DO : exists m' z r, does F (parameters_of [x] [u]) b m' z r o /\ z <> Nothing). { clear - OS NU NO. revert k NU NO. induction OS as [|? ? ? ? H OS IH]; intros [|k] NU NO; try discriminate; cbn in *; [injection NU as <-; injection NO as <-; exact H|eapply IH; eassumption]. }
    destruct DO as (m' & z' & r & DO & NZ). assert (VH1 : var_at st1 g h = Some (P j (OVar fv))). { destruct C as (_ & _ & KV & _). rewrite KV; [exact VH| |intros []]. destruct CA as ((_ & _ & (gs & G & _) & _) & _). exists gs. exact G. }
    destruct (fun_calls F m h [x] b [u] m' z' r o g st1 c [P y (OVar z)] f j fv FH eq_refl) as (w' & st2 & CL & _ & C2 & S2 & O2); try assumption; try (apply frame_view; exact R).
    + repeat constructor; intros [].
    + repeat constructor. exact (proj1 TX). all: apply TX.
    + apply (proj1 (proj2 (proj2 (all_good F)))). exact DO.
    + repeat constructor. exact VX.
    + exists (Some w'), st2. auto.
Qed.
(** ** The call in a program *)
Lemma body_code : forall st p, stm_at st p foreach_body -> exists q, foreach_code st p q.
Proof.
  intros st p H. inversion H as [| | | |? ps ss CD SS| | | |]; subst. inversion SS as [|i1 l1 ps1 ? ? S1 SS1]; subst. inversion SS1 as [|i2 l2 ps2 ? ? S2 SS2]; subst. inversion SS2 as [|i3 l3 ps3 ? ? S3 SS3]; subst. inversion SS3; subst.
  inversion S2 as [| |? px pe ? ? CM SX EE| | | | | |]; subst. inversion EE as [| |? ? pks ? CL EL| | | | |]; subst. inversion EL as [|pk ? ? ? EK EN]; subst. inversion EN; subst. assert (SK : expr_sym pk $"container") by (inversion EK; subst; assumption).
  inversion S3 as [| | | | | | |? pc pb ? ? CW EC EB|]; subst. inversion EB as [| | | |? pbs ? CB SB| | | |]; subst. inversion SB as [|i4 l4 ps4 ? ? SA SB1]; subst. inversion SB1 as [|i5 l5 ps5 ? ? SS5 SB2]; subst. inversion SB2; subst.
  assert (EA : exp_at st (P i4 (OList l4)) (Call $"apply" [Name $"fcn"; Prim $"list" [Prim $"nth" [Name $"__i"; Name $"container"]]])) by (inversion SA; subst; assumption).
  inversion EA as [| | | | |? ? pas ? CA EAS| |]; subst. inversion EAS as [|pf ? ? ? EF EAS1]; subst. inversion EAS1 as [|pl ? ? ? ELL EAS2]; subst. inversion EAS2; subst.
  assert (SF : expr_sym pf $"fcn") by (inversion EF; subst; assumption). inversion ELL as [| |? ? pls ? CLL ELS| | | | |]; subst. inversion ELS as [|pn ? ? ? ENN ELS1]; subst. inversion ELS1; subst.
  inversion ENN as [| |? ? pns ? CN ENS| | | | |]; subst. inversion ENS as [|pi ? ? ? EI ENS1]; subst. inversion ENS1 as [|pk2 ? ? ? EK2 ENS2]; subst. inversion ENS2; subst.
  assert (SI : expr_sym pi $"__i") by (inversion EI; subst; assumption). assert (SK2 : expr_sym pk2 $"container") by (inversion EK2; subst; assumption).
  exists (Pieces pc pb (P i4 (OList l4)) (P i5 (OList l5))), (P i1 (OList l1)), (P i2 (OList l2)), (P i3 (OList l3)), px, pe, pk. cbn [the_condition the_body].
  repeat (split; [assumption|]). split; [|exact SS5]. exists pf, pl, pn, pi, pk2. cbn [the_call]. auto 10.
Qed.
Lemma evaluated_snoc : forall s qs st rs st' i v, evaluated s qs st rs st' -> settled v -> evaluated s (qs ++ [P i (OVar v)]) st (rs ++ [P i (OVar v)]) st'.
Proof. intros s qs st rs st' i v H SV. induction H; cbn [app]; [apply ev_value; [exact SV|apply ev_nil]|apply ev_value; assumption|eapply ev_list; eassumption]. Qed.
Lemma callable_calm : forall st st' s g, calm st st' -> sane st' -> callable F st s g -> callable F st' s g.
Proof.
  intros st st' s g C S (W & (sc & H & EG) & WA & FA & TN). split; [eapply world_calm; [exact C|apply S|apply S|exact W]|].
  split. { destruct C as (_ & KS & _). destruct (KS _ _ H) as (sc' & H' & G' & _). exists sc'. split; [exact H'|congruence]. }
  split; [|auto]. eapply word_keeps; [| | |exact C|exact WA]; try (intros u []). destruct W as (_ & _ & (gs & G & _) & _). exists gs. exact G.
Qed.
Lemma foreach_found : forall st g, world F st g -> F $"foreach" = Some ([$"container"; $"fcn"], foreach_body) ->
  exists i v fn q, var_at st g $"foreach" = Some (P i (OVar v)) /\ is_fn v fn /\ fn_sp fn = false /\ is_foreach st fn q.
Proof.
  intros st g W FF. destruct W as (_ & _ & _ & _ & _ & D). destruct (D _ _ _ FF) as (i & v & fn & name & modname & fp & body & more & ds & V & IF & SP & CD & XD & PA & SB).
  destruct (body_code _ _ SB) as (q & FC). exists i, v, fn, q. repeat (split; [assumption|]). exists name, modname, fp, body, more, ds. auto.
Qed.
Lemma foreach_args : forall m g st s p ce h v o0 j fv f, callable F st s g -> frame F st s g m -> exp_at st p (Call $"foreach" [ce; Name h]) -> F $"foreach" = Some ([$"container"; $"fcn"], foreach_body) ->
  yields F m ce v o0 -> sees st s h (Some (P j (OVar fv))) -> is_fn fv f ->
  exists i w st1 fn q, callable F st1 s g /\ is_foreach st1 fn q /\ val_is st1 w v /\ calm st st1 /\ sane st1 /\ st_out st1 = st_out st ++ o0 /\
    forall o st', calls fn [P i (OVar w); P j (OVar fv)] s st1 o st' -> evals p s st o st'.
Proof.
  intros m g st s p ce h v o0 j fv f CA R E FF Y SE IF. pose proof CA as (W & _). inversion E as [| | | | |? ? ps es CO ES| |]; subst.
  inversion ES as [|pe ps1 ? ? EE ES1]; subst. inversion ES1 as [|ph ps2 ? ? EH ES2]; subst. inversion ES2; subst. assert (SH : expr_sym ph h) by (inversion EH; subst; assumption).
  pose proof (proj1 (proj2 (all_good F)) m [ce] [v] (o0 ++ []) (ya_cons F m ce [] v [] o0 [] Y (ya_nil F m))) as GS. rewrite app_nil_r in GS.
  destruct (GS g st s [pe] W (frame_view _ _ _ _ _ R) (es_cons _ _ _ _ _ EE (es_nil _))) as (qs & LQ & K). destruct (code_form _ _ _ _ CO) as (tok & FO).
  destruct (K (noted st s tok) (calm_noted st s tok) (sane_noted _ _ _ (world_sane _ _ _ W))) as (rs & st1 & EV & VS & C1 & S1 & O1).
  destruct (vals_one _ _ _ VS) as (i & w & -> & VW). assert (C : calm st st1) by (eapply calm_trans; [apply calm_noted|exact C1]).
  destruct (foreach_found st g W FF) as (fi & fvv & fn & q & VF & IFF & SPF & IS).
  destruct (means_fun F st s g m $"foreach" _ _ W R FF) as (fi' & fv' & fn' & VF' & IF' & M & SP).
  assert (fv' = fvv) by congruence. subst fv'. assert (fn' = fn) by (destruct IFF as [_ E1]; destruct IF' as [_ E2]; congruence). subst fn'.
  exists i, w, st1, fn, q. split; [eapply callable_calm; eassumption|]. split.
  { destruct IS as (name & modname & fp & body & more & ds & CD & XD & PA & (p1 & p2 & p3 & px & pee & pk & D0 & D1 & D2 & D3 & D4 & D5 & D6 & D7)). exists name, modname, fp, body, more, ds.
    split; [exact CD|]. split; [eapply asks_keeps; eassumption|]. split; [eapply params_keeps; eassumption|]. exists p1, p2, p3, px, pee, pk.
    repeat split; try assumption; try (eapply code_keeps; [exact C|assumption]); try (eapply loop_keeps; [exact C|exact D7]). eapply stm_keeps; [exact C|exact D1]. }
  split; [exact VW|]. split; [exact C|]. split; [exact S1|]. split; [rewrite O1, noted_out; reflexivity|]. intros o st' CL.
  eapply (ordinary_dispatch st s p $"foreach" tok [pe; ph] (qs ++ [P j (OVar fv)]) ([P i (OVar w)] ++ [P j (OVar fv)]) st1 fn); [exact FO|exact M|exact SP| |apply evaluated_snoc; [exact EV|eapply is_fn_settled; exact IF]|exact CL].
  change [pe; ph] with ([pe] ++ [ph]). apply Forall2_app; [exact LQ|]. constructor; [eapply lu_var; [exact SH|exact SE]|constructor].
Qed.
End Loop.

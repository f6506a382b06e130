(** The interpreter runs the programs of the small language as their meaning says. *)
Require Import String Ascii List ZArith Bool Lia.
Require Import PArith FMapPositive.
From Verif Require Import Base CppString Num Token Value State Show ScopeOps Builtins Table Eval LispTop SpecRun SpecVal SpecNum SpecList SpecForm SpecCalc SpecIo SpecMix SpecLang SpecClos
  BuiltinProofs RelProofs FrameProofs RunProofs NumProofs StrProofs ListProofs FormProofs ClosProofs CalcProofs IoProofs QuoteProofs MixProofs SmallProofs ClassifyProofs.
Import ListNotations.

(** ** Numbering *)
Definition ahead (a b : state) : Prop := (st_nloc a <= st_nloc b)%positive.
Lemma ahead_run : forall n, rel_recs ahead (run n).
Proof.
  intro n. apply rel_run; unfold ahead, rel; intros; try (cbn; lia); try (eapply Pos.le_trans; eassumption).
  - unfold mod_scope, bind, reads. destruct (get_scope s st); cbn; lia.
  - unfold read_line. destruct (st_in st); cbn; lia.
Qed.
Lemma evals_ahead : forall p s st o st', evals p s st o st' -> ahead st st'.
Proof. intros p s st o st' (n & H & _). pose proof (rr_eval _ _ (ahead_run n) p s st) as K. rewrite H in K. exact K. Qed.
Lemma calls_ahead : forall f a s st o st', calls f a s st o st' -> ahead st st'.
Proof. intros f a s st o st' (n & H & _). pose proof (rr_call _ _ (ahead_run n) f a s st) as K. rewrite H in K. exact K. Qed.
Lemma evals_numbered : forall p s st o st', numbered st -> evals p s st o st' -> numbered st'.
Proof. intros p s st o st' N (n & H & _). pose proof (fr_eval _ (frm_run n) p s st N) as K. rewrite H in K. apply K. Qed.
Lemma calls_numbered : forall f a s st o st', numbered st -> calls f a s st o st' -> numbered st'.
Proof. intros f a s st o st' N (n & H & _). pose proof (fr_call _ (frm_run n) f a s st N) as K. rewrite H in K. apply K. Qed.
Lemma heap_ahead : forall st st', heap_numbered st -> ahead st st' -> st_vecs st' = st_vecs st -> st_dicts st' = st_dicts st -> heap_numbered st'.
Proof.
  intros st st' [A B] L V D. unfold ahead in L. split; intros l x E; unfold vec_at, dict_at in *; [rewrite V in E; specialize (A l x E)|rewrite D in E; specialize (B l x E)]; lia.
Qed.

(** ** Changes *)
Lemma keeps_refl : forall A W st, keeps A W st st.
Proof. intros A W st. repeat split; auto. intros u sc H. exists sc. repeat split; auto. Qed.
Lemma keeps_trans : forall A W a b c, keeps A W a b -> keeps A W b c -> keeps A W a c.
Proof.
  intros A W a b c (V1 & S1 & N1 & D1 & I1 & F1 & E1) (V2 & S2 & N2 & D2 & I2 & F2 & E2).
  assert (X : forall u, scope_exists a u -> scope_exists b u). { intros u (sc & H). destruct (S1 u sc H) as (sc' & H' & _). exists sc'. exact H'. }
  split; [auto|]. split.
  { intros u sc H. destruct (S1 u sc H) as (s1 & H1 & P1 & P2 & P3 & P4 & P5 & P6). destruct (S2 u s1 H1) as (s2 & H2 & Q1 & Q2 & Q3 & Q4 & Q5 & Q6).
    exists s2. repeat split; try congruence; auto. intro NA. rewrite Q6, P6 by exact NA. reflexivity. }
  split. { intros u n H NW. rewrite N2, N1 by auto. reflexivity. }
  split; [auto|]. repeat split; congruence.
Qed.
Lemma keeps_weaken : forall (A A' : sid -> Prop) (W W' : sid -> str -> Prop) st st', (forall u, A u -> A' u) -> (forall u n, W u n -> W' u n) -> keeps A W st st' -> keeps A' W' st st'.
Proof.
  intros A A' W W' st st' HA HW (V1 & S1 & N1 & R). split; [exact V1|]. split; [|split; [|exact R]].
  - intros u sc H. destruct (S1 u sc H) as (s1 & H1 & P1 & P2 & P3 & P4 & P5 & P6). exists s1. repeat split; auto.
  - intros u n H NW. apply N1; auto.
Qed.
Lemma keeps_changes : forall V st st', changes_only V st st' -> keeps no_scope V st st'.
Proof.
  intros V st st' (VA & EX & SC & R1 & R2 & R3 & R4 & R5 & R6). split. { intros l es H. unfold vec_at in *. rewrite R1. exact H. }
  split.
  { intros u sc H. assert (X : scope_exists st' u) by (apply EX; exists sc; exact H). destruct X as (sc' & H'). exists sc'. split; [exact H'|].
    destruct (SC u sc sc' H H') as ((K1 & K2 & K3 & K4 & K5 & K6 & K7 & K8 & K9 & K10 & _) & _). repeat split; auto. }
  split; [intros u n _ NV; apply VA; exact NV|]. split; [intros l d H; unfold dict_at in *; rewrite R2; exact H|]. repeat split; assumption.
Qed.
Definition none2 (u : sid) (n : str) : Prop := False.
Definition calm : state -> state -> Prop := keeps no_scope none2.
Lemma calm_any : forall A W st st', calm st st' -> keeps A W st st'.
Proof. intros A W st st'. apply keeps_weaken; intros; contradiction. Qed.
Lemma calm_trans : forall a b c, calm a b -> calm b c -> calm a c. Proof. exact (keeps_trans _ _). Qed.
Lemma calm_refl : forall a, calm a a. Proof. exact (keeps_refl _ _). Qed.
Lemma calm_noted : forall st s tok, calm st (noted st s tok).
Proof. intros. eapply keeps_weaken; [| |apply keeps_changes, (changes_noted no_var)]; auto. Qed.
Lemma calm_nid : forall st k, calm st (with_nid k st).
Proof. intros. eapply keeps_weaken; [| |apply keeps_changes, (changes_nid no_var)]; auto. Qed.
Lemma calm_same : forall st st', same_data st st' -> calm st st'.
Proof.
  intros st st' (E1 & E2 & E3 & E4 & E5 & E6 & E7). split. { intros l es H. unfold vec_at in *. rewrite E2. exact H. }
  split. { intros u sc H. exists sc. unfold scope_at in *. rewrite E1. repeat split; auto. }
  split. { intros u n _ _. unfold var_at, scope_at. rewrite E1. reflexivity. }
  split. { intros l d H. unfold dict_at in *. rewrite E3. exact H. }
  repeat split; congruence.
Qed.
Lemma calm_adds : forall st st', only_adds st st' -> calm st st'.
Proof.
  intros st st' (A & B & C & D & E & F & G). split; [exact A|]. split. { intros u sc H. exists sc. unfold scope_at in *. rewrite C. repeat split; auto. }
  split. { intros u n _ _. unfold var_at, scope_at. rewrite C. reflexivity. }
  split; [exact B|]. repeat split; congruence.
Qed.
Lemma calm_out : forall st t, calm st (written_out st t).
Proof. intros. repeat split; auto. intros u sc H. exists sc. repeat split; auto. Qed.

(** ** Code stays where it is *)
Lemma code_keeps : forall A W st st' p name args, keeps A W st st' -> code_of st p name args -> code_of st' p name args.
Proof. intros A W st st' p name args (V & _) (i & l & j & h & -> & H & S). exists i, l, j, h. auto. Qed.
Scheme val_is_m := Minimality for val_is Sort Prop with vals_are_m := Minimality for vals_are Sort Prop.
Combined Scheme val_is_both from val_is_m, vals_are_m.
Lemma val_keeps2 : forall A W st st', keeps A W st st' -> (forall w v, val_is st w v -> val_is st' w v) /\ (forall ps vs, vals_are st ps vs -> vals_are st' ps vs).
Proof.
  intros A W st st' (K & _). apply val_is_both; intros; try (constructor; auto; fail). eapply vi_list; [|eassumption|eassumption].
  match goal with H : is_list_at _ _ _ _ |- _ => destruct H as (T & L & V) end. split; [exact T|]. split; [exact L|apply K, V].
Qed.
Lemma val_keeps : forall A W st st' w v, keeps A W st st' -> val_is st w v -> val_is st' w v.
Proof. intros A W st st' w v K. apply (val_keeps2 A W st st' K). Qed.
Lemma vals_keep : forall A W st st' ps vs, keeps A W st st' -> vals_are st ps vs -> vals_are st' ps vs.
Proof. intros A W st st' w v K. apply (val_keeps2 A W st st' K). Qed.
Lemma res_keeps : forall A W st st' r v, keeps A W st st' -> res_is st r v -> res_is st' r v.
Proof. intros A W st st' [w|] v K; [apply (val_keeps A W), K|exact (fun H => H)]. Qed.
Lemma val_num : forall st w z, val_is st w (NumV z) -> is_int w z /\ fits z.
Proof. intros st w z H. inversion H; subst. auto. Qed.
Lemma val_bool : forall st w b, val_is st w (BoolV b) -> is_bool w b.
Proof. intros st w z H. inversion H; subst. auto. Qed.
Lemma val_text : forall st w t, val_is st w (TextV t) -> is_str w t.
Proof. intros st w z H. inversion H; subst. auto. Qed.
Scheme exp_at_m := Minimality for exp_at Sort Prop with exps_at_m := Minimality for exps_at Sort Prop.
Combined Scheme exp_at_both from exp_at_m, exps_at_m.
Scheme stm_at_m := Minimality for stm_at Sort Prop with stms_at_m := Minimality for stms_at Sort Prop.
Combined Scheme stm_at_both from stm_at_m, stms_at_m.
Lemma exp_keeps2 : forall A W st st', keeps A W st st' -> (forall p e, exp_at st p e -> exp_at st' p e) /\ (forall p e, exps_at st p e -> exps_at st' p e).
Proof.
  intros A W st st' K. assert (C : forall p name args, code_of st p name args -> code_of st' p name args) by (intros; eapply code_keeps; eassumption).
  assert (V : forall w v, val_is st w v -> val_is st' w v) by (intros; eapply val_keeps; eassumption).
  apply exp_at_both; intros; econstructor; eauto.
Qed.
Lemma exp_keeps : forall A W st st' p e, keeps A W st st' -> exp_at st p e -> exp_at st' p e.
Proof. intros A W st st' p e K. apply (exp_keeps2 A W st st' K). Qed.
Lemma stm_keeps2 : forall A W st st', keeps A W st st' -> (forall p e, stm_at st p e -> stm_at st' p e) /\ (forall p e, stms_at st p e -> stms_at st' p e).
Proof.
  intros A W st st' K. assert (C : forall p name args, code_of st p name args -> code_of st' p name args) by (intros; eapply code_keeps; eassumption).
  assert (E : forall p e, exp_at st p e -> exp_at st' p e) by (intros; eapply exp_keeps; eassumption).
  apply stm_at_both; intros; econstructor; eauto.
Qed.
Lemma stm_keeps : forall A W st st' p e, keeps A W st st' -> stm_at st p e -> stm_at st' p e.
Proof. intros A W st st' p e K. apply (stm_keeps2 A W st st' K). Qed.
Lemma exists_keeps : forall A W st st' s, keeps A W st st' -> scope_exists st s -> scope_exists st' s.
Proof. intros A W st st' s (_ & S & _) (sc & H). destruct (S s sc H) as (sc' & H' & _). exists sc'. exact H'. Qed.
Lemma asks_keeps : forall A W st st' s, keeps A W st st' -> asks_value st s -> asks_value st' s.
Proof. intros A W st st' s (_ & S & _) (sc & H & N). destruct (S s sc H) as (sc' & H' & _ & _ & _ & _ & N' & _). exists sc'. split; [exact H'|congruence]. Qed.
Lemma asks_exists : forall st s, asks_value st s -> scope_exists st s.
Proof. intros st s (sc & H & _). exists sc. exact H. Qed.
Lemma params_keeps : forall A W st st' p xs, keeps A W st st' -> parameters st p xs -> parameters st' p xs.
Proof.
  intros A W st st' p xs (V & _) (fs & E & S). exists fs. split; [|exact S]. destruct E as [(i & l & -> & H)|(i & v & l & -> & T & L & H)]; [left; exists i, l; auto|right; exists i, v, l].
  split; [reflexivity|]. repeat split; auto.
Qed.
Lemma world_keeps : forall F A W st st' g, (forall n, fixed F n -> forall u, ~ W u n) -> (forall u, ~ W u $"###macros###") -> keeps A W st st' -> numbered st' -> heap_numbered st' ->
  world F st g -> world F st' g.
Proof.
  intros F A W st st' g NF NM K NU HN (_ & _ & (gs & G & T) & M & B & D). pose proof K as (V & S & N & _). assert (XG : scope_exists st g) by (exists gs; exact G).
  split; [exact NU|]. split; [exact HN|]. split. { destruct (S g gs G) as (gs' & G' & _ & _ & _ & T' & _). exists gs'. split; [exact G'|congruence]. }
  split; [|split].
  - intros n FN. destruct (M n FN) as ((_ & NMA) & PR). split; [|exact PR]. split; [eapply exists_keeps; eassumption|]. rewrite N by (auto; apply NM). destruct NMA as [E|(i & ms & E & X & VM)]; [left; exact E|].
    right. exists i, ms. split; [exact E|]. split; [eapply exists_keeps; eassumption|]. rewrite N by (auto; apply NF; exact FN). exact VM.
  - intros n I. destruct (B n I) as (i & v & fn & VG & R). exists i, v, fn. split; [|exact R]. rewrite N by (auto; apply NF; left; exact I). exact VG.
  - intros f xs b FF. destruct (D f xs b FF) as (i & v & fn & fname & modname & fp & body & more & ds & VG & H1 & H2 & H3 & H4 & H5 & H6).
    exists i, v, fn, fname, modname, fp, body, more, ds. split; [rewrite N; [exact VG|exact XG|apply NF; right; congruence]|]. repeat split; auto; try apply H1.
    + eapply asks_keeps; eassumption.
    + eapply params_keeps; eassumption.
    + eapply stm_keeps; eassumption.
Qed.
Lemma world_calm : forall F st st' g, calm st st' -> numbered st' -> heap_numbered st' -> world F st g -> world F st' g.
Proof. intros F st st' g. apply world_keeps; intros; intro X; exact X. Qed.
Lemma collects_same : forall st st' s b, (forall n, var_at st' s n = var_at st s n) -> collects st s b -> collects st' s b.
Proof. intros st st' s b E [(i & o & H1) (j & H2)]. split; [exists i, o|exists j]; rewrite E; assumption. Qed.
Lemma frame_calm : forall F st st' s g m, calm st st' -> frame F st s g m -> frame F st' s g m.
Proof.
  intros F st st' s g m K ((sc & H & G & NL) & X & V & C). pose proof K as (_ & S & N & _). assert (XS : scope_exists st s) by (exists sc; exact H).
  assert (E : forall n, var_at st' s n = var_at st s n) by (intro n; apply N; [exact XS|intro Q; exact Q]).
  split. { destruct (S s sc H) as (sc' & H' & G' & _ & _ & _ & NL' & _). exists sc'. split; [exact H'|]. split; congruence. }
  split. { intros n FN. rewrite E. auto. }
  split. { intros x v MX. rewrite E. destruct (V x v MX) as (i & w & VA & VI). exists i, w. split; [exact VA|eapply val_keeps; [exact K|exact VI]]. }
  destruct C as [C|(b & C)]; [left; rewrite E; exact C|right; exists b; eapply collects_same; eassumption].
Qed.
Lemma leaving_calm : forall st st' s b, calm st st' -> leaving st s b -> leaving st' s b.
Proof. intros st st' s b (_ & S & _) (sc & H & I). destruct (S s sc H) as (sc' & H' & _ & _ & _ & _ & _ & Q). exists sc'. split; [exact H'|]. rewrite Q; [exact I|intro X; exact X]. Qed.

(** ** Names *)
Definition sane (st : state) : Prop := numbered st /\ heap_numbered st.
Lemma world_sane : forall F st g, world F st g -> sane st. Proof. intros F st g (A & B & _). split; assumption. Qed.
Lemma sane_noted : forall st s tok, sane st -> sane (noted st s tok).
Proof. intros st s tok [A B]. split; [apply numbered_noted, A|apply noted_heap, B]. Qed.
Lemma sane_nid : forall st k, sane st -> sane (with_nid k st).
Proof. intros st k H. exact H. Qed.
Lemma sane_out : forall st t, sane st -> sane (written_out st t).
Proof. intros st k H. exact H. Qed.
(** ** Views *)
Lemma frame_view : forall F st s g m, frame F st s g m -> view F st s g m.
Proof.
  intros F st s g m (H & X & V & C). split; [exact H|]. split; [exact X|]. split; [|exact C]. intros x v MX. destruct (V x v MX) as (i & w & VA & VI). exists i, w. split; [apply fd_own; exact VA|exact VI].
Qed.
Lemma enclosing_calm : forall st st' x s r, calm st st' -> enclosing st x s r -> enclosing st' x s r.
Proof.
  intros st st' x s r K E. pose proof K as (_ & S & N & _). assert (X : forall u, scope_exists st u -> scope_exists st' u) by (intros u (a & H); destruct (S u a H) as (b & H' & _); exists b; exact H').
  assert (V : forall u, scope_exists st u -> var_at st' u x = var_at st u x) by (intros u H; apply N; [exact H|intro Q; exact Q]).
  induction E as [s sc H C|s sc c p H C LT XC VA|s sc c r H C LT XC VA E IH]; destruct (S s sc H) as (sc' & H' & _ & C' & _).
  - eapply en_none; [exact H'|congruence].
  - eapply en_here; [exact H'|congruence|exact LT|apply X; exact XC|rewrite V by exact XC; exact VA].
  - eapply en_up; [exact H'|rewrite C'; exact C|exact LT|apply X; exact XC|rewrite V by exact XC; exact VA|exact IH].
Qed.
Lemma finds_calm : forall st st' s g x p, calm st st' -> scope_exists st s -> scope_exists st g -> finds st s g x p -> finds st' s g x p.
Proof.
  intros st st' s g x p K XS XG H. pose proof K as (_ & _ & N & _). assert (V : forall u, scope_exists st u -> var_at st' u x = var_at st u x) by (intros u Hu; apply N; [exact Hu|intro Q; exact Q]).
  inversion H as [q A|q A B|c q A B E]; subst; [apply fd_own|apply fd_global|eapply fd_around]; rewrite ?V by assumption; try assumption. eapply enclosing_calm; eassumption.
Qed.
Lemma world_global : forall F st g, world F st g -> scope_exists st g.
Proof. intros F st g (_ & _ & (gs & G & _) & _). exists gs. exact G. Qed.
Lemma view_calm : forall F st st' s g m, calm st st' -> view F st s g m -> world F st g -> view F st' s g m.
Proof.
  intros F st st' s g m K ((sc & H & G & NL) & X & V & C) W. pose proof (world_global _ _ _ W) as XG. pose proof K as (_ & S & N & _). assert (XS : scope_exists st s) by (exists sc; exact H).
  assert (E : forall n, var_at st' s n = var_at st s n) by (intro n; apply N; [exact XS|intro Q; exact Q]).
  split. { destruct (S s sc H) as (sc' & H' & G' & _ & _ & _ & NL' & _). exists sc'. split; [exact H'|]. split; congruence. }
  split. { intros n FN. rewrite E. auto. }
  split. { intros x v MX. destruct (V x v MX) as (i & w & VA & VI). exists i, w. split; [eapply finds_calm; eassumption|eapply val_keeps; [exact K|exact VI]]. }
  destruct C as [C|(b & C)]; [left; rewrite E; exact C|right; exists b; eapply collects_same; eassumption].
Qed.
Lemma view_word : forall F st s g m n, world F st g -> view F st s g m -> In n words -> exists fn, builtin_fn n = Some fn /\ means st s n fn.
Proof.
  intros F st s g m n (_ & _ & (gs & G & T) & M & B & _) ((sc & H & EG & _) & X & _) I. destruct (B n I) as (i & v & fn & VG & FN & BF).
  exists fn. split; [exact BF|]. exists sc, gs, i, v. rewrite EG. repeat split; try assumption; try apply FN.
  - eapply exists_at; exact G.
  - apply (M n (or_introl I)).
  - destruct (X n (or_introl I)) as [-> | XN]; [apply se_own; [eapply exists_at; exact G|exact VG]|]. eapply se_global; [exact H|exact XN| |rewrite EG; exact VG]. rewrite EG. eapply exists_at; exact G.
Qed.
Lemma view_standard : forall F st s g m n, world F st g -> view F st s g m -> In n words -> standard st s n.
Proof. intros F st s g m n W R I. exact (view_word F st s g m n W R I). Qed.
Lemma view_fun : forall F st s g m f xs b, world F st g -> view F st s g m -> F f = Some (xs, b) ->
  exists i v fn, var_at st g f = Some (P i (OVar v)) /\ is_fn v fn /\ means st s f fn /\ fn_sp fn = false.
Proof.
  intros F st s g m f xs b (_ & _ & (gs & G & T) & M & _ & D) ((sc & H & EG & _) & X & _) FF. assert (FX : fixed F f) by (right; congruence).
  destruct (D f xs b FF) as (i & v & fn & fname & modname & fp & body & more & ds & VG & FN & SP & REST).
  exists i, v, fn. split; [exact VG|]. split; [exact FN|]. split; [|exact SP]. exists sc, gs, i, v. rewrite EG. repeat split; try assumption; try apply FN.
  - eapply exists_at; exact G.
  - apply (M f FX).
  - destruct (X f FX) as [-> | XN]; [apply se_own; [eapply exists_at; exact G|exact VG]|]. eapply se_global; [exact H|exact XN| |rewrite EG; exact VG]. rewrite EG. eapply exists_at; exact G.
Qed.
Lemma means_word : forall F st s g m n, world F st g -> frame F st s g m -> In n words -> exists fn, builtin_fn n = Some fn /\ means st s n fn.
Proof. intros F st s g m n W R. exact (view_word F st s g m n W (frame_view _ _ _ _ _ R)). Qed.
Lemma word_standard : forall F st s g m n, world F st g -> frame F st s g m -> In n words -> standard st s n.
Proof. intros F st s g m n W R I. exact (means_word F st s g m n W R I). Qed.
Lemma means_fun : forall F st s g m f xs b, world F st g -> frame F st s g m -> F f = Some (xs, b) ->
  exists i v fn, var_at st g f = Some (P i (OVar v)) /\ is_fn v fn /\ means st s f fn /\ fn_sp fn = false.
Proof. intros F st s g m f xs b W R. exact (view_fun F st s g m f xs b W (frame_view _ _ _ _ _ R)). Qed.
Lemma view_sees : forall F st s g m x v, world F st g -> view F st s g m -> m x = Some v -> exists i w, sees st s x (Some (P i (OVar w))) /\ val_is st w v.
Proof.
  intros F st s g m x v W ((sc & H & G & _) & _ & V & _) MX. apply world_global in W. destruct (V x v MX) as (i & w & VA & VI). exists i, w. split; [|exact VI]. rewrite <- G in W.
  inversion VA as [q A|q A B|c q A B E]; subst; [apply se_own; [exists sc; exact H|exact A]|eapply se_global; eassumption|eapply se_enclosing; eassumption].
Qed.
Lemma view_asks : forall F st s g m, view F st s g m -> asks_value st s.
Proof. intros F st s g m ((sc & H & _ & N) & _). exists sc. auto. Qed.
Lemma frame_asks : forall F st s g m, frame F st s g m -> asks_value st s.
Proof. intros F st s g m ((sc & H & _ & N) & _). exists sc. auto. Qed.
Lemma val_ty : forall st w v, val_is st w v -> v_ty w <> TSym /\ v_ty w <> TNil /\ v_ty w <> TNative.
Proof.
  intros st w v H. assert (T : In (v_ty w) [TInt; TBool; TString; TUndef; TList]) by (inversion H as [? ? [T _]|? ? [T _]|? ? [T _]|? ? ? ? (T & _) _ _|? T]; subst; rewrite T; cbn; tauto).
  cbn in T. repeat split; intro E; rewrite E in T; intuition discriminate.
Qed.
Lemma val_simple : forall st w v, val_is st w v -> simple v -> v_ty w <> TList.
Proof. intros st w v H S E. inversion H as [? ? [T _]|? ? [T _]|? ? [T _]|? ? ? ? (T & _) _ _|? T]; subst; try congruence. contradiction. Qed.
Lemma val_settled : forall st w v, val_is st w v -> settled w.
Proof.
  intros st w v H. pose proof (val_ty _ _ _ H) as (_ & N & _). inversion H; subst; try (right; split; [eapply val_simple; [exact H|exact Logic.I]|exact N]). left. assumption.
Qed.
Lemma exp_plain : forall st p e, exp_at st p e -> plain p.
Proof.
  intros st p e H. inversion H; subst; try (match goal with C : code_of _ _ _ _ |- _ => destruct C as (i & l & j & h & -> & _); exact Logic.I end).
  - eapply val_settled; eassumption.
  - match goal with C : expr_sym _ _ |- _ => destruct C as (i & v & -> & T & _) end. right. split; congruence.
Qed.
Lemma stm_plain : forall st p e, stm_at st p e -> plain p.
Proof.
  intros st p e H. inversion H; subst; try (match goal with C : code_of _ _ _ _ |- _ => destruct C as (i & l & j & h & -> & _); exact Logic.I end). eapply exp_plain; eassumption.
Qed.
Lemma code_form : forall st p name args, code_of st p name args -> exists tok, form st p name tok args.
Proof. intros st p name args (i & l & j & h & -> & V & S). exists (v_tok h). apply form_at with (j := j); assumption. Qed.

(** ** Expressions *)
Section Lang.
Variable F : funs.
Definition exp_good (m : store) (e : exp) (v : value) (o : str) : Prop := forall g st s p, world F st g -> view F st s g m -> exp_at st p e ->
  exists w st', evals p s st (Val (Some w)) st' /\ val_is st' w v /\ calm st st' /\ sane st' /\ st_out st' = st_out st ++ o.
Definition exps_good (m : store) (es : list exp) (vs : list value) (o : str) : Prop := forall g st s ps, world F st g -> view F st s g m -> exps_at st ps es ->
  exists qs, Forall2 (looked_up st s) ps qs /\ forall st0, calm st st0 -> sane st0 ->
    exists rs st1, evaluated s qs st0 rs st1 /\ vals_are st1 rs vs /\ calm st0 st1 /\ sane st1 /\ st_out st1 = st_out st0 ++ o.
Lemma exps_nil : forall m, exps_good m [] [] [].
Proof.
  intros m g st s ps W R E. inversion E; subst. exists []. split; [constructor|]. intros st0 C S. exists [], st0. split; [constructor|]. split; [constructor|]. split; [apply calm_refl|].
  split; [exact S|]. rewrite app_nil_r. reflexivity.
Qed.
Lemma exps_cons : forall m e es v vs o1 o2, yields F m e v o1 -> exp_good m e v o1 -> exps_good m es vs o2 -> exps_good m (e :: es) (v :: vs) (o1 ++ o2).
Proof.
  intros m e es v vs o1 o2 Y G GS g st s ps W R E. inversion E as [|p ps' e' es' EH ET]; subst. destruct (GS g st s ps' W R ET) as (qs & LQ & K).
  assert (LIST : (exists name args, code_of st p name args) -> exists qs0, Forall2 (looked_up st s) (p :: ps') qs0 /\ forall st0, calm st st0 -> sane st0 ->
    exists rs st1, evaluated s qs0 st0 rs st1 /\ vals_are st1 rs (v :: vs) /\ calm st0 st1 /\ sane st1 /\ st_out st1 = st_out st0 ++ o1 ++ o2).
  { intros (name & args & i & l & j & h & -> & _). exists (P i (OList l) :: qs). split; [constructor; [apply lu_list|exact LQ]|]. intros st0 C S.
    assert (W0 : world F st0 g) by (eapply world_calm; [exact C|apply S|apply S|exact W]). assert (R0 : view F st0 s g m) by (eapply view_calm; eassumption).
    destruct (G g st0 s (P i (OList l)) W0 R0 (exp_keeps _ _ _ _ _ _ C EH)) as (w & st1 & EV & VI & C1 & S1 & O1).
    set (st2 := with_nid (Pos.succ (st_nid st1)) st1). assert (C2 : calm st st2). { eapply calm_trans; [exact C|]. eapply calm_trans; [exact C1|apply calm_nid]. }
    destruct (K st2 C2 (sane_nid _ _ S1)) as (rs & st3 & EVS & VS & C3 & S3 & O3). exists (P (st_nid st1) (OVar w) :: rs), st3.
    split. { eapply ev_list; [exact EV|eapply val_settled; exact VI|split; reflexivity|exact EVS]. }
    split. { constructor; [eapply val_keeps; [exact C3|]; eapply val_keeps; [apply calm_nid|exact VI]|exact VS]. }
    split. { eapply calm_trans; [exact C1|]. eapply calm_trans; [apply calm_nid|exact C3]. }
    split; [exact S3|]. rewrite O3. change (st_out st2) with (st_out st1). rewrite O1, <- app_assoc. reflexivity. }
  assert (ATOM : forall i w, val_is st w v -> o1 = [] -> looked_up st s p (P i (OVar w)) -> exists qs0, Forall2 (looked_up st s) (p :: ps') qs0 /\ forall st0, calm st st0 -> sane st0 ->
    exists rs st1, evaluated s qs0 st0 rs st1 /\ vals_are st1 rs (v :: vs) /\ calm st0 st1 /\ sane st1 /\ st_out st1 = st_out st0 ++ o1 ++ o2).
  { intros i w VI -> LU. exists (P i (OVar w) :: qs). split; [constructor; [exact LU|exact LQ]|]. intros st0 C S. destruct (K st0 C S) as (rs & st3 & EVS & VS & C3 & S3 & O3).
    exists (P i (OVar w) :: rs), st3. split; [apply ev_value; [eapply val_settled; exact VI|exact EVS]|]. split; [constructor; [eapply val_keeps; [exact C3|]; eapply val_keeps; [exact C|exact VI]|exact VS]|].
    split; [exact C3|]. split; [exact S3|]. exact O3. }
  inversion EH; subst; try (apply LIST; eexists; eexists; eassumption).
  - inversion Y; subst. apply (ATOM i w); [assumption|reflexivity|]. apply lu_value. eapply val_ty; eassumption.
  - inversion Y; subst. match goal with M : m x = Some v |- _ => destruct (view_sees _ _ _ _ _ _ _ W R M) as (i & w & SE & VI) end.
    apply (ATOM i w); [exact VI|reflexivity|]. eapply lu_var; eassumption.
Qed.
(** Calls of ordinary functions. *)
Lemma ordinary_call : forall m g st s p name args es vs o1 f, world F st g -> view F st s g m -> code_of st p name args -> exps_at st args es -> exps_good m es vs o1 ->
  means st s name f -> fn_sp f = false ->
  exists rs st1, vals_are st1 rs vs /\ calm st st1 /\ sane st1 /\ st_out st1 = st_out st ++ o1 /\ forall o st', evals p s st o st' <-> calls f rs s st1 o st'.
Proof.
  intros m g st s p name args es vs o1 f W R C E G M SP. destruct (G g st s args W R E) as (qs & LQ & K). destruct (code_form _ _ _ _ C) as (tok & FO).
  destruct (K (noted st s tok) (calm_noted st s tok) (sane_noted _ _ _ (world_sane _ _ _ W))) as (rs & st1 & EV & VS & C1 & S1 & O1).
  exists rs, st1. split; [exact VS|]. split; [eapply calm_trans; [apply calm_noted|exact C1]|]. split; [exact S1|]. split.
  { rewrite O1. f_equal. unfold noted. destruct tok; [|reflexivity]. destruct (scope_at st s); reflexivity. }
  intros o st'. eapply ordinary_dispatch; eassumption.
Qed.
Lemma noted_out : forall st s tok, st_out (noted st s tok) = st_out st.
Proof. intros. unfold noted. destruct tok; [|reflexivity]. destruct (scope_at st s); reflexivity. Qed.
Definition plain_words : list str := [$"+"; $"-"; $"*"; $"/"; $"%"; $"<"; $"<="; $">"; $">="; $"=="; $"!="; $"not"; $"println"; $"return"; $"str"; $"list"; $"cons"; $"append"; $"reverse"; $"len"; $"first"; $"car"; $"rest"; $"cdr"; $"last"; $"nth"; $"map"; $"reduce"].
Lemma words_sp : forall n, In n plain_words -> In n words /\ option_map fn_sp (builtin_fn n) = Some false.
Proof.
  intros n H. cbn [plain_words In] in H. repeat match type of H with _ \/ _ => destruct H as [<- | H] end; try contradiction; split; try (vm_compute; tauto); vm_compute; reflexivity.
Qed.
Lemma word_call : forall m g st s p n args es vs o1, world F st g -> view F st s g m -> code_of st p n args -> exps_at st args es -> exps_good m es vs o1 -> In n plain_words ->
  exists rs st1, vals_are st1 rs vs /\ calm st st1 /\ sane st1 /\ st_out st1 = st_out st ++ o1 /\ forall o st', builtin_call n rs s st1 o st' -> evals p s st o st'.
Proof.
  intros m g st s p n args es vs o1 W R C E G I. destruct (words_sp n I) as [IW SP]. destruct (view_word _ _ _ _ _ _ W R IW) as (f & B & M).
  rewrite B in SP. injection SP as SP. destruct (ordinary_call m g st s p n args es vs o1 f W R C E G M SP) as (rs & st1 & VS & C1 & S1 & O1 & Q).
  exists rs, st1. split; [exact VS|]. split; [exact C1|]. split; [exact S1|]. split; [exact O1|]. intros o st' (f' & B' & K). assert (f' = f) by congruence. subst f'. apply Q. exact K.
Qed.
Lemma decides_bool : forall n v w (Q : Prop) (c : bool) i j s st, decides n v w Q -> (c = true <-> Q) -> builtin_pure n [P i (OVar v); P j (OVar w)] s st (fun r => is_bool r c).
Proof.
  intros n v w Q c i j s st D H. destruct (D i j s st) as (b & BQ & K). assert (E : b = c) by (destruct b, c; auto; intuition; try discriminate; exfalso; intuition congruence). subst b. exact K.
Qed.
Lemma pure_weaken : forall n args s st (Q R : variant -> Prop), (forall r, Q r -> R r) -> builtin_pure n args s st Q -> builtin_pure n args s st R.
Proof. intros n args s st Q R H (r & K & X). exists r. auto. Qed.
Lemma bin_computes : forall k x y v w1 w2 i j s st, computes k x y v -> val_is st w1 (NumV x) -> val_is st w2 (NumV y) -> builtin_pure (op_name k) [P i (OVar w1); P j (OVar w2)] s st (fun r => val_is st r v).
Proof.
  intros k x y v w1 w2 i j s st C V1 V2. destruct (val_num _ _ _ V1) as [I1 F1]. destruct (val_num _ _ _ V2) as [I2 F2].
  assert (AR : forall f name, operation name f -> fits (f x y) -> builtin_pure name [P i (OVar w1); P j (OVar w2)] s st (fun r => val_is st r (NumV (f x y)))).
  { intros f name O FI. eapply pure_weaken; [|apply (operation_exact name f _ x [y]); [exact O| |discriminate|split; [exact FI|exact Logic.I]]].
    - intros r H. constructor; [exact H|exact FI].
    - constructor; [exists i, w1; auto|]. constructor; [exists j, w2; auto|constructor]. }
  destruct (order_ints w1 w2 x y I1 I2) as (D1 & D2 & D3 & D4). destruct (equal_ints w1 w2 x y I1 I2) as (D5 & D6).
  assert (DV : forall q r, divides_to x y q r -> fits q -> gives $"/" w1 w2 q /\ gives $"%" w1 w2 r /\ fits q /\ fits r).
  { intros q r D FQ. pose proof D as (E & L & S). apply (div_ok w1 w2 x y q r I1 I2); [lia|exact F1| |exact D]. intros [-> ->]. unfold fits in FQ. lia. }
  assert (BO : forall n b, builtin_pure n [P i (OVar w1); P j (OVar w2)] s st (fun r => is_bool r b) -> builtin_pure n [P i (OVar w1); P j (OVar w2)] s st (fun r => val_is st r (BoolV b))) by (intros n b; apply pure_weaken; intros; constructor; assumption).
  inversion C; subst.
  - apply (AR Z.add); [left; auto|assumption].
  - apply (AR Z.sub); [right; left; auto|assumption].
  - apply (AR Z.mul); [right; right; auto|assumption].
  - match goal with D : divides_to _ _ _ _, Q : fits _ |- _ => destruct (DV _ _ D Q) as (G1 & _ & X & _) end. eapply pure_weaken; [|apply G1]. intros r' HR. constructor; assumption.
  - match goal with D : divides_to _ _ _ _, Q : fits q |- _ => destruct (DV _ _ D Q) as (_ & G1 & _ & X) end. eapply pure_weaken; [|apply G1]. intros r' HR. constructor; assumption.
  - apply BO. apply (decides_bool _ _ _ _ _ _ _ _ _ D1). apply Z.ltb_lt.
  - apply BO. apply (decides_bool _ _ _ _ _ _ _ _ _ D2). apply Z.leb_le.
  - apply BO. apply (decides_bool _ _ _ _ _ _ _ _ _ D3). apply Z.ltb_lt.
  - apply BO. apply (decides_bool _ _ _ _ _ _ _ _ _ D4). apply Z.leb_le.
  - apply BO. apply (decides_bool _ _ _ _ _ _ _ _ _ D5). apply Z.eqb_eq.
  - apply BO. apply (decides_bool _ _ _ _ _ _ _ _ _ D6). rewrite negb_true_iff. apply Z.eqb_neq.
Qed.
Lemma not_computes : forall b w i s st, is_bool w b -> builtin_pure $"not" [P i (OVar w)] s st (fun r => is_bool r (negb b)).
Proof.
  intros b w i s st [T V]. apply (pure_intro _ BNot) with (r := vbool (negb b)); [vm_compute; reflexivity| |split; reflexivity].
  cbn [call_builtin]. unfold b_not, wrap1, check_args, argv, arg, bind, lift, reads, ret, some. cbn [length Nat.eqb negb nth_error vref vref_obj var_of_ptr var_of_obj].
  unfold bool_value, is_ty. rewrite T, V. reflexivity.
Qed.
Lemma op_plain : forall k, In (op_name k) plain_words. Proof. intros []; vm_compute; tauto. Qed.
Lemma in_words : forall n, In n [$"and"; $"if"; $"def"; $"setf"; $"do"; $"while"] -> In n words.
Proof. intros n H. cbn [In] in H. repeat match type of H with _ \/ _ => destruct H as [<- | H] end; try contradiction; vm_compute; tauto. Qed.

Lemma good_const : forall m v, exp_good m (Const v) v [].
Proof.
  intros m v g st s p W R E. assert (X : exists i w, p = P i (OVar w) /\ val_is st w v /\ simple v) by (inversion E; subst; eauto). destruct X as (i & w & -> & VI & SI). exists w, st.
  split; [apply eval_atom; [apply (val_ty _ _ _ VI)|eapply val_simple; eassumption]|]. split; [exact VI|]. split; [apply calm_refl|]. split; [eapply world_sane; exact W|]. rewrite app_nil_r. reflexivity.
Qed.
Lemma good_name : forall m x v, m x = Some v -> exp_good m (Name x) v [].
Proof.
  intros m x v MX g st s p W R E. assert (X : expr_sym p x) by (inversion E; subst; assumption). destruct (view_sees _ _ _ _ _ _ _ W R MX) as (i & w & SE & VI).
  destruct (symbol_value p x s st i w X SE) as (st' & EV & SD). exists w, st'. split; [exact EV|]. split; [eapply val_keeps; [apply calm_same, SD|exact VI]|]. split; [apply calm_same, SD|].
  destruct (world_sane _ _ _ W) as [NU HN]. split; [split; [eapply evals_numbered; eassumption|eapply heap_ahead; [exact HN|eapply evals_ahead; exact EV|apply SD|apply SD]]|].
  rewrite app_nil_r. apply SD.
Qed.
(** Functions on values. *)
Definition call_good (n : str) (rs : list ptr) (s : sid) (st : state) (v : value) : Prop :=
  exists r st', builtin_call n rs s st (Val (Some r)) st' /\ val_is st' r v /\ calm st st' /\ sane st' /\ st_out st' = st_out st.
Lemma pure_good : forall n rs s st v, sane st -> builtin_pure n rs s st (fun r => val_is st r v) -> call_good n rs s st v.
Proof. intros n rs s st v S (r & K & V). exists r, st. split; [exact K|]. split; [exact V|]. split; [apply calm_refl|]. split; [exact S|reflexivity]. Qed.
Lemma list_good : forall n rs s st es vs, sane st -> vals_are st es vs -> builtin_list n rs s st es -> call_good n rs s st (ListV vs).
Proof.
  intros n rs s st es vs S V (r & st' & K & (l & _ & L & U) & O & H). exists r, st'. pose proof (calm_adds _ _ O) as C. split; [exact K|].
  split; [eapply vi_list; [exact L|rewrite U; discriminate|eapply vals_keep; [exact C|exact V]]|]. split; [exact C|].
  split; [|apply O]. split; [|exact H]. destruct K as (f & _ & K). eapply calls_numbered; [apply S|exact K].
Qed.
Lemma vals_two : forall st rs a b, vals_are st rs [a; b] -> exists i v j w, rs = [P i (OVar v); P j (OVar w)] /\ val_is st v a /\ val_is st w b.
Proof.
  intros st rs a b H. inversion H as [|i v ? ps ? V1 H1]; subst. inversion H1 as [|j w ? ps' ? V2 H2]; subst. inversion H2; subst. exists i, v, j, w. auto.
Qed.
Lemma vals_one : forall st rs a, vals_are st rs [a] -> exists i v, rs = [P i (OVar v)] /\ val_is st v a.
Proof. intros st rs a H. inversion H as [|i v ? ps ? V1 H1]; subst. inversion H1; subst. exists i, v. auto. Qed.
Lemma vals_ints : forall st zs rs, vals_are st rs (map NumV zs) -> int_args rs zs.
Proof.
  intros st zs. induction zs as [|z zs IH]; intros rs H; inversion H as [|i v ? ps ? V1 H1]; subst; constructor; [|apply IH, H1]. exists i, v. split; [reflexivity|]. eapply val_num; exact V1.
Qed.
Lemma vals_texts : forall st ts rs, vals_are st rs (map TextV ts) -> text_args rs ts.
Proof.
  intros st ts. induction ts as [|z zs IH]; intros rs H; inversion H as [|i v ? ps ? V1 H1]; subst; constructor; [|apply IH, H1]. exists i, v. split; [reflexivity|]. apply at_text. eapply val_text; exact V1.
Qed.
Lemma val_list_arg : forall st i w vs, val_is st w (ListV vs) -> exists ps, list_arg st (P i (OVar w)) ps /\ vals_are st ps vs.
Proof. intros st i w vs H. inversion H as [| | |? l ps ? L U VS|]; subst. exists ps. split; [|exact VS]. exists i, w. split; [reflexivity|]. left. exists l. exact L. Qed.
Lemma vals_lists : forall st vss rs, vals_are st rs (map ListV vss) -> exists pss, Forall2 (list_arg st) rs pss /\ vals_are st (concat pss) (concat vss).
Proof.
  assert (APP : forall st ps vs, vals_are st ps vs -> forall qs us, vals_are st qs us -> vals_are st (ps ++ qs) (vs ++ us)).
  { intros st ps. induction ps as [|p ps IH]; intros vs H qs us Q; inversion H; subst; [exact Q|]. cbn [app]. constructor; auto. }
  intros st vss. induction vss as [|vs vss IH]; intros rs H; inversion H as [|i v ? ps ? V1 H1]; subst; [exists []; split; constructor|].
  destruct (IH _ H1) as (pss & F1 & F2). destruct (val_list_arg _ i _ _ V1) as (qs & LA & VA). exists (qs :: pss). split; [constructor; assumption|]. cbn [concat]. apply APP; assumption.
Qed.
Lemma vals_app : forall st ps vs us, vals_are st ps (vs ++ us) -> exists p1 p2, ps = p1 ++ p2 /\ vals_are st p1 vs /\ vals_are st p2 us.
Proof.
  intros st ps vs. revert ps. induction vs as [|v vs IH]; intros ps us H; [exists [], ps; split; [reflexivity|]; split; [constructor|exact H]|].
  cbn [app] in H. inversion H as [|i w ? ps' ? V1 H1]; subst. destruct (IH _ _ H1) as (p1 & p2 & -> & A & B). exists (P i (OVar w) :: p1), p2. split; [reflexivity|]. split; [constructor; assumption|exact B].
Qed.
Lemma vals_rev : forall st vs ps, vals_are st ps vs -> vals_are st (rev ps) (rev vs).
Proof.
  intros st vs. induction vs as [|v vs IH]; intros ps H; inversion H as [|i w ? ps' ? V1 H1]; subst; [constructor|]. cbn [rev].
  assert (APP : forall ps vs, vals_are st ps vs -> forall qs us, vals_are st qs us -> vals_are st (ps ++ qs) (vs ++ us)).
  { intros ps0. induction ps0 as [|p ps0 IH0]; intros vs0 H0 qs us Q; inversion H0; subst; [exact Q|]. cbn [app]. constructor; auto. }
  apply APP; [apply IH, H1|]. constructor; [exact V1|constructor].
Qed.
Lemma vals_nth : forall st vs ps k v, vals_are st ps vs -> nth_error vs k = Some v -> exists i w, nth_error ps k = Some (P i (OVar w)) /\ val_is st w v.
Proof.
  intros st vs. induction vs as [|u vs IH]; intros ps k v H N; inversion H as [|i w ? ps' ? V1 H1]; subst; destruct k as [|k]; try discriminate; cbn [nth_error] in *.
  - injection N as ->. exists i, w. auto.
  - eapply IH; eassumption.
Qed.
Lemma vals_length : forall st ps vs, vals_are st ps vs -> length ps = length vs.
Proof. intros st ps vs. revert ps. induction vs as [|v vs IH]; intros ps H; inversion H; subst; cbn; [reflexivity|f_equal; auto]. Qed.
(** The text of a value. *)
Fixpoint size (v : value) : nat := match v with ListV vs => S (list_sum (map size vs)) | _ => 0 end.
Lemma val_det : forall st, (forall w v, val_is st w v -> forall u, val_is st w u -> u = v) /\ (forall ps vs, vals_are st ps vs -> forall us, vals_are st ps us -> us = vs).
Proof.
  intro st. apply val_is_both.
  - intros w z [T V] _ u H. inversion H as [? ? [T' V']|? ? [T' V']|? ? [T' V']|? ? ? ? (T' & V' & _) _ _|? T']; subst; congruence.
  - intros w z [T V] u H. inversion H as [? ? [T' V']|? ? [T' V']|? ? [T' V']|? ? ? ? (T' & V' & _) _ _|? T']; subst; congruence.
  - intros w z [T V] u H. inversion H as [? ? [T' V']|? ? [T' V']|? ? [T' V']|? ? ? ? (T' & V' & _) _ _|? T']; subst; congruence.
  - intros w l ps vs (T & V & L) _ _ IH u H. inversion H as [? ? [T' V']|? ? [T' V']|? ? [T' V']|? l' ps' vs' (T' & V' & L') _ H'|? T']; subst; try congruence.
    assert (l' = l) by congruence. subst l'. assert (ps' = ps) by congruence. subst ps'. f_equal. apply IH, H'.
  - intros w T u H. inversion H as [? ? [T' V']|? ? [T' V']|? ? [T' V']|? ? ? ? (T' & V' & _) _ _|? T']; subst; congruence.
  - intros us H. inversion H. reflexivity.
  - intros i w v ps vs _ IH1 _ IH2 us H. inversion H as [|? ? u ? us' V1 V2]; subst. f_equal; auto.
Qed.
Lemma positives_bound : forall n (ls : list positive), NoDup ls -> Forall (fun l => (l < n)%positive) ls -> (length ls < Pos.to_nat n)%nat.
Proof.
  intros n ls ND H. assert (IN : incl (map Pos.to_nat ls) (seq 1 (Pos.to_nat n - 1))).
  { intros k I. apply in_map_iff in I. destruct I as (l & <- & I). rewrite Forall_forall in H. specialize (H l I). apply in_seq. pose proof (Pos2Nat.is_pos l). lia. }
  assert (ND' : NoDup (map Pos.to_nat ls)) by (apply FinFun.Injective_map_NoDup; [intros a b; apply Pos2Nat.inj|exact ND]).
  pose proof (NoDup_incl_length ND' IN) as Q. rewrite map_length, seq_length in Q. pose proof (Pos2Nat.is_pos n). lia.
Qed.
Lemma z_text_ne : forall z, z_to_string z <> [].
Proof. intros z E. pose proof (z_to_string_int_text z) as H. rewrite E in H. inversion H. congruence. Qed.
Lemma inner_ne : forall st w v, val_is st w v -> inner_text v <> [].
Proof. intros st w v H. inversion H as [? z|? []| | |]; subst; try discriminate. cbn [inner_text]. apply z_text_ne. Qed.
Lemma join_spaced : forall (f : ptr -> out str) ps ts, Forall2 (fun p t => f p = Val t /\ t <> []) ps ts -> forall acc, acc <> [] -> join_out $" " f ps acc = Val (acc ++ concat (map (fun t => $" " ++ t) ts)).
Proof.
  intros f ps ts H. induction H as [|p t ps ts [E N] H IH]; intros acc NA; cbn [join_out map concat]; [rewrite app_nil_r; reflexivity|].
  destruct acc as [|c acc]; [congruence|]. rewrite E. cbn [obind]. rewrite IH by discriminate. rewrite <- !app_assoc. reflexivity.
Qed.
Lemma join_all : forall (f : ptr -> out str) ps ts, Forall2 (fun p t => f p = Val t /\ t <> []) ps ts -> join_out $" " f ps [] = Val (spaced ts).
Proof.
  intros f ps ts H. destruct H as [|p t ps ts [E N] H]; [reflexivity|]. cbn [join_out]. rewrite E. cbn [obind app]. rewrite (join_spaced f ps ts H t N).
  f_equal. clear. revert t. induction ts as [|u ts IH]; intro t; cbn [map concat]; [rewrite app_nil_r; reflexivity|]. rewrite <- app_assoc, IH. reflexivity.
Qed.
(** [path] are the lists around the value. *)
Definition around (st : state) (path : list loc) (v : value) : Prop :=
  NoDup path /\ Forall (fun l => (l < st_nloc st)%positive /\ exists ps vs, vec_at st l = Some ps /\ vals_are st ps vs /\ (size v < size (ListV vs))%nat) path.
Lemma size_in : forall v vs, In v vs -> (size v < size (ListV vs))%nat.
Proof. intros v vs H. cbn [size]. induction vs as [|u vs IH]; [destruct H|]. cbn [map list_sum fold_right] in *. destruct H as [->|H]; [lia|]. specialize (IH H). unfold list_sum in *. lia. Qed.
Lemma show_step : forall n st w l, v_ty w = TList -> v_val w = Some (OList l) ->
  show (S (S n)) st (ShVar w) = let? es := get_vec l st in let? s := join_out $" " (fun p => let? o := deref p in show n st (ShCont o)) es [] in Val ($"(" ++ s ++ $")").
Proof. intros n st w l T V. cbn [show]. rewrite T, V. reflexivity. Qed.
Lemma show_list : forall k st v w path n, heap_numbered st -> (size v < k)%nat -> val_is st w v -> around st path v -> (3 + 4 * (Pos.to_nat (st_nloc st) - length path) <= n)%nat ->
  show n st (ShVar w) = Val (match v with TextV t => t | _ => inner_text v end).
Proof.
  induction k as [|k IH]; intros st v w path n HN SZ VI (ND & AR) LE; [lia|]. destruct n as [|[|n]]; try lia.
  inversion VI as [? z [T V] FZ|? b [T V]|? t [T V]|? l ps vs (T & V & L) U VS|? T]; subst; [cbn [show]; rewrite T, V; reflexivity|cbn [show]; rewrite T, V; destruct b; reflexivity|cbn [show]; rewrite T, V; reflexivity| |cbn [show]; rewrite T; reflexivity].
  - rewrite (show_step n st w l T V). unfold get_vec. unfold vec_at in L. rewrite L. fold (vec_at st l) in L. cbn [obind]. pose proof (proj1 HN _ _ L) as LL.
    assert (NI : ~ In l path).
    { intro I. rewrite Forall_forall in AR. destruct (AR l I) as (_ & ps' & vs' & L' & VS' & S'). assert (ps' = ps) by congruence. subst ps'. rewrite (proj2 (val_det st) _ _ VS _ VS') in S'. lia. }
    assert (PB : (length (l :: path) < Pos.to_nat (st_nloc st))%nat).
    { apply positives_bound; [constructor; assumption|]. constructor; [exact LL|]. eapply Forall_impl; [|exact AR]. intros a (Q & _). exact Q. }
    cbn [length] in PB.
    match goal with |- context [join_out _ ?f ps []] => assert (FA : Forall2 (fun p t => f p = Val t /\ t <> []) ps (map inner_text vs)) end.
    { assert (EL : forall v0, In v0 vs -> forall w0, val_is st w0 v0 -> forall j, (3 + 4 * (Pos.to_nat (st_nloc st) - length (l :: path)) <= j)%nat -> show j st (ShVar w0) = Val (match v0 with TextV t => t | _ => inner_text v0 end)).
      { intros v0 I w0 V0 j LJ. apply (IH st v0 w0 (l :: path) j HN); [pose proof (size_in _ _ I); lia|exact V0| |exact LJ]. split; [constructor; assumption|]. constructor.
        - split; [exact LL|]. exists ps, vs. split; [exact L|]. split; [exact VS|apply size_in, I].
        - eapply Forall_impl; [|exact AR]. intros a (Q1 & ps1 & vs1 & Q2 & Q3 & Q4). split; [exact Q1|]. exists ps1, vs1. split; [exact Q2|]. split; [exact Q3|]. pose proof (size_in _ _ I). lia. }
      cbn [length] in EL. clear -VS EL LE PB.
      induction VS as [|i w0 v0 ps0 vs0 V0 VS IHV]; cbn [map]; constructor; [|apply IHV; intros; apply EL; [right|..]; assumption].
      split; [|eapply inner_ne; exact V0]. cbn [deref obind]. destruct n as [|[|[|n]]]; try lia.
      destruct (ltype_eqb (v_ty w0) TString) eqn:TS.
      - assert (X : exists t, v0 = TextV t /\ is_str w0 t).
        { inversion V0 as [? ? [T0 _]|? ? [T0 _]|? ? I0|? ? ? ? (T0 & _)|? T0]; subst; try (rewrite T0 in TS; discriminate TS). eauto. }
        destruct X as (t0 & -> & T0 & V0'). change (show (S (S (S n))) st (ShCont (OVar w0))) with (if is_ty TString w0 then show (S (S n)) st (ShDbg w0) else show (S (S n)) st (ShObj (OVar w0))).
        unfold is_ty. rewrite TS. change (show (S (S n)) st (ShDbg w0)) with (if is_ty TString w0 then match v_val w0 with None => Val (dq ++ $"null" ++ dq) | Some o => let? s := show (S n) st (ShObj o) in Val (dq ++ s ++ dq) end else show (S n) st (ShVar w0)).
        unfold is_ty. rewrite TS, V0'. reflexivity.
      - change (show (S (S (S n))) st (ShCont (OVar w0))) with (if is_ty TString w0 then show (S (S n)) st (ShDbg w0) else show (S (S n)) st (ShObj (OVar w0))).
        unfold is_ty. rewrite TS. change (show (S (S n)) st (ShObj (OVar w0))) with (show (S n) st (ShVar w0)). rewrite (EL v0 (or_introl eq_refl) w0 V0) by lia.
        destruct v0; try reflexivity. inversion V0 as [| |? ? [T0 _]| |]; subst. rewrite T0 in TS. discriminate TS. }
    rewrite (join_all _ _ _ FA). reflexivity.
Qed.
Lemma val_shown : forall st w v t, heap_numbered st -> val_is st w v -> text_of v = Some t -> forall i, ptr_str (P i (OVar w)) st = Val t.
Proof.
  intros st w v t HN VI TX i. rewrite ptr_str_var. rewrite (show_list (S (size v)) st v w []); [|exact HN|lia|exact VI|split; constructor|cbn [length]; lia].
  destruct v; cbn [text_of] in TX; try discriminate; congruence.
Qed.
Lemma text_shown : forall w v t i s st, heap_numbered st -> val_is st w v -> text_of v = Some t -> shows s st (P i (OVar w)) t.
Proof.
  intros w v t i s st HN VI TX. exists i, w. split; [reflexivity|]. split; [apply (val_ty _ _ _ VI)|]. pose proof (val_shown st w v t HN VI TX i) as PS.
  apply pure_intro with (b := BToString) (r := vstr t); [vm_compute; reflexivity| |apply vstr_is].
  cbn [call_builtin]. unfold b_str, check_args, args_str, argv, arg. cbn [length Nat.eqb negb nth_error].
  unfold bind, ret, reads, lift. rewrite PS. cbn [vref vref_obj]. unfold is_ty. destruct (val_ty _ _ _ VI) as (_ & _ & NN). destruct (v_ty w); try reflexivity. congruence.
Qed.
Lemma alias_good : forall n m rs s st v, (forall o st', builtin_call n rs s st o st' -> builtin_call m rs s st o st') -> call_good n rs s st v -> call_good m rs s st v.
Proof. intros n m rs s st v E (r & st' & K & Q). exists r, st'. split; [apply E, K|exact Q]. Qed.
Lemma first_alias : forall n rs s st v, In n [$"first"; $"car"] -> call_good $"first" rs s st v -> call_good n rs s st v.
Proof. intros n rs s st v [<-|[<-|[]]]; [exact (fun H => H)|]. apply alias_good. intros o st'. apply (proj1 (alias_same $"first" $"car" ltac:(do 9 right; left; reflexivity) rs s st o st')). Qed.
Lemma rest_alias : forall n rs s st v, In n [$"rest"; $"cdr"] -> call_good $"rest" rs s st v -> call_good n rs s st v.
Proof. intros n rs s st v [<-|[<-|[]]]; [exact (fun H => H)|]. apply alias_good. intros o st'. apply (proj1 (alias_same $"rest" $"cdr" ltac:(do 10 right; left; reflexivity) rs s st o st')). Qed.
Lemma alike_decides : forall st v w a b e, alike a b e -> val_is st v a -> val_is st w b -> exists Q : Prop, decides $"==" v w Q /\ decides $"!=" v w (~ Q) /\ (e = true <-> Q).
Proof.
  intros st v w a b e A V W. destruct A as [a b|a b|a b].
  - destruct (equal_ints v w a b) as [D1 D2]; [eapply val_num; eassumption|eapply val_num; eassumption|]. exists (a = b). split; [exact D1|]. split; [exact D2|apply Z.eqb_eq].
  - destruct (equal_bools v w a b) as [D1 D2]; [eapply val_bool; eassumption|eapply val_bool; eassumption|]. exists (a = b). split; [exact D1|]. split; [exact D2|apply eqb_true_iff].
  - destruct (equal_strs v w a b) as [D1 D2]; [eapply val_text; eassumption|eapply val_text; eassumption|]. exists (a = b). split; [exact D1|]. split; [exact D2|]. destruct (list_eq_dec ascii_dec a b); intuition congruence.
Qed.
Lemma prim_good : forall n vs v, prim n vs v -> forall st s rs, sane st -> asks_value st s -> vals_are st rs vs -> call_good n rs s st v.
Proof.
  intros n vs v PR st s rs S AV VS.
  assert (BO : forall n rs b, builtin_pure n rs s st (fun r => is_bool r b) -> call_good n rs s st (BoolV b)) by (intros n0 rs0 b K; apply pure_good; [exact S|]; eapply pure_weaken; [|exact K]; intros; constructor; assumption).
  assert (NU : forall n rs z, fits z -> builtin_pure n rs s st (fun r => is_int r z) -> call_good n rs s st (NumV z)) by (intros n0 rs0 b FZ K; apply pure_good; [exact S|]; eapply pure_weaken; [|exact K]; intros; constructor; assumption).
  assert (TE : forall n rs z, builtin_pure n rs s st (fun r => is_str r z) -> call_good n rs s st (TextV z)) by (intros n0 rs0 b K; apply pure_good; [exact S|]; eapply pure_weaken; [|exact K]; intros; constructor; assumption).
  assert (EL : forall n rs w u, val_is st w u -> builtin_pure n rs s st (fun r => r = w) -> call_good n rs s st u) by (intros n0 rs0 w u VW K; apply pure_good; [exact S|]; eapply pure_weaken; [|exact K]; intros r ->; exact VW).
  destruct PR as [k a b v C|n f z zs O NE AF FI|z FZ|b|a b e A|a b e A|t ts|v t TX|vs|v vs|vss|vs|vs SH|n v vs I|n v vs I|vs v|k vs v N|t SH|t SH|n t I SH|n c t I|t c|k t LE].
  - destruct (vals_two _ _ _ _ VS) as (i & w1 & j & w2 & -> & V1 & V2). apply pure_good; [exact S|]. eapply bin_computes; eassumption.
  - apply NU; [exact FI|]. eapply operation_exact; try eassumption. eapply vals_ints; exact VS.
  - destruct (vals_one _ _ _ VS) as (i & w & -> & V). apply NU; [exact FZ|]. apply negate_exact; [eapply val_num; exact V|exact FZ].
  - destruct (vals_one _ _ _ VS) as (i & w & -> & V). apply BO. apply not_computes. eapply val_bool; exact V.
  - destruct (vals_two _ _ _ _ VS) as (i & w1 & j & w2 & -> & V1 & V2). destruct (alike_decides _ _ _ _ _ _ A V1 V2) as (Q & D1 & D2 & E). apply BO. eapply decides_bool; eassumption.
  - destruct (vals_two _ _ _ _ VS) as (i & w1 & j & w2 & -> & V1 & V2). destruct (alike_decides _ _ _ _ _ _ A V1 V2) as (Q & D1 & D2 & E). apply BO. eapply decides_bool; [exact D2|]. rewrite negb_true_iff. rewrite <- E. destruct e; intuition congruence.
  - cbn [map] in VS. inversion VS as [|i w ? ps ? V1 V2]; subst. apply TE. apply (join_ok [] [] i w t ps ts s st); [constructor|exact Logic.I|eapply val_text; exact V1|eapply vals_texts; exact V2].
  - destruct (vals_one _ _ _ VS) as (i & w & -> & V). apply TE. destruct (text_shown w v t i s st (proj2 S) V TX) as (i' & w' & _ & _ & K). exact K.
  - eapply list_good; [exact S|exact VS|apply list_ok, S].
  - destruct (vals_two _ _ _ _ VS) as (i & w1 & j & w2 & -> & V1 & V2). destruct (val_list_arg _ j _ _ V2) as (ps & LA & VA). eapply list_good; [exact S| |apply cons_ok; [apply S|exact LA]]. constructor; assumption.
  - destruct (vals_lists _ _ _ VS) as (pss & FA & VA). eapply list_good; [exact S|exact VA|apply append_ok; [apply S|exact FA]].
  - destruct (vals_one _ _ _ VS) as (i & w & -> & V). destruct (val_list_arg _ i _ _ V) as (ps & LA & VA). eapply list_good; [exact S|apply vals_rev; exact VA|apply reverse_ok; [apply S|exact LA]].
  - destruct (vals_one _ _ _ VS) as (i & w & -> & V). destruct (val_list_arg _ i _ _ V) as (ps & LA & VA). unfold short in SH. apply NU; [unfold fits; lia|]. rewrite <- (vals_length _ _ _ VA) in *. apply len_ok; assumption.
  - destruct (vals_one _ _ _ VS) as (i & w & -> & V). destruct (val_list_arg _ i _ _ V) as (ps & LA & VA). inversion VA as [|j u ? ps' ? V1 V2]; subst. apply first_alias; [exact I|]. eapply EL; [exact V1|]. eapply first_ok; [exact LA|constructor|exact AV].
  - destruct (vals_one _ _ _ VS) as (i & w & -> & V). destruct (val_list_arg _ i _ _ V) as (ps & LA & VA). inversion VA as [|j u ? ps' ? V1 V2]; subst. apply rest_alias; [exact I|]. eapply list_good; [exact S|exact V2|eapply rest_ok; [apply S|exact LA]].
  - destruct (vals_one _ _ _ VS) as (i & w & -> & V). destruct (val_list_arg _ i _ _ V) as (ps & LA & VA). destruct (vals_app _ _ _ _ VA) as (p1 & p2 & -> & A1 & A2). destruct (vals_one _ _ _ A2) as (j & u & -> & V1).
    eapply EL; [exact V1|]. eapply last_ok; [exact LA|constructor|exact AV].
  - destruct (vals_two _ _ _ _ VS) as (i & w1 & j & w2 & -> & V1 & V2). destruct (val_list_arg _ j _ _ V2) as (ps & LA & VA). destruct (vals_nth _ _ _ _ _ VA N) as (x & u & NP & VU).
    eapply EL; [exact VU|]. eapply nth_ok; [eapply val_num; exact V1|exact LA|lia|rewrite Nat2Z.id; exact NP|constructor|exact AV].
  - destruct (vals_one _ _ _ VS) as (i & w & -> & V). apply TE. apply seq_strings; [eapply val_text; exact V|exact SH].
  - destruct (vals_one _ _ _ VS) as (i & w & -> & V). unfold short in SH. apply NU; [unfold fits; lia|]. apply seq_strings; [eapply val_text; exact V|exact SH].
  - destruct (vals_one _ _ _ VS) as (i & w & -> & V). apply first_alias; [exact I|]. apply TE. apply seq_strings; [eapply val_text; exact V|exact SH].
  - destruct (vals_one _ _ _ VS) as (i & w & -> & V). apply rest_alias; [exact I|]. apply TE. eapply rest_string. eapply val_text; exact V.
  - destruct (vals_one _ _ _ VS) as (i & w & -> & V). apply TE. eapply last_string. eapply val_text; exact V.
  - destruct (vals_two _ _ _ _ VS) as (i & w1 & j & w2 & -> & V1 & V2). apply TE. destruct (nth_string i w1 (Z.of_nat k) j w2 t s st) as [K _]; [eapply val_num; exact V1|eapply val_text; exact V2|]. rewrite Nat2Z.id in K. apply K. lia.
Qed.
Lemma prim_plain : forall n vs v, prim n vs v -> In n plain_words.
Proof.
  intros n vs v H. destruct H as [k| n f ? ? O| | | | | | | | | | | |? ? ? I|? ? ? I| | | | |? ? I|? ? ? I| |]; try (vm_compute; tauto); try apply op_plain.
  - destruct O as [[-> _]|[[-> _]|[-> _]]]; vm_compute; tauto.
  - destruct I as [<-|[<-|[]]]; vm_compute; tauto.
  - destruct I as [<-|[<-|[]]]; vm_compute; tauto.
  - destruct I as [<-|[<-|[]]]; vm_compute; tauto.
  - destruct I as [<-|[<-|[]]]; vm_compute; tauto.
Qed.
Lemma good_prim : forall m n es vs v o, exps_good m es vs o -> prim n vs v -> exp_good m (Prim n es) v o.
Proof.
  intros m n es vs v o GS PR g st s p W R E. inversion E as [| |p' n' ps es' CO ES| | | | |]; subst.
  destruct (word_call m g st s p n ps es _ _ W R CO ES GS (prim_plain _ _ _ PR)) as (rs & st1 & VS & C1 & S1 & O1 & Q).
  destruct (prim_good n vs v PR st1 s rs S1 (asks_keeps _ _ _ _ _ C1 (view_asks _ _ _ _ _ R)) VS) as (r & st2 & K & VI & C2 & S2 & O2).
  exists r, st2. split; [apply Q; exact K|]. split; [exact VI|]. split; [eapply calm_trans; eassumption|]. split; [exact S2|congruence].
Qed.
Lemma good_and : forall m a b x o1 o, exp_good m a (BoolV x) o1 -> (if x then exists y o2, exp_good m b (BoolV y) o2 /\ o = o1 ++ o2 /\ True else o = o1) -> forall v,
  (if x then exists y o2, exp_good m b (BoolV y) o2 /\ o = o1 ++ o2 /\ v = BoolV y else v = BoolV false) -> exp_good m (Both a b) v o.
Proof.
  intros m a b x o1 o G1 H1 v H2 g st s p W R E. inversion E as [| | |p' pa pb a' b' CO EA EB| | | |]; subst. destruct (code_form _ _ _ _ CO) as (tok & FO).
  assert (ST : standard st s $"and") by (eapply view_standard; try eassumption; vm_compute; tauto).
  assert (PL : Forall plain [pa; pb]) by (constructor; [eapply exp_plain; exact EA|constructor; [eapply exp_plain; exact EB|constructor]]).
  pose proof (and_value st s p $"and" tok [pa; pb] ltac:(left; reflexivity) FO ST PL) as AV.
  set (st0 := noted st s tok) in *. assert (C0 : calm st st0) by apply calm_noted. assert (S0 : sane st0) by (apply sane_noted; eapply world_sane; exact W).
  assert (W0 : world F st0 g) by (eapply world_calm; [exact C0|apply S0|apply S0|exact W]). assert (R0 : view F st0 s g m) by (eapply view_calm; eassumption).
  destruct (G1 g st0 s pa W0 R0 (exp_keeps _ _ _ _ _ _ C0 EA)) as (w1 & st1 & EV1 & VI1 & C1 & S1 & O1).
  assert (O0 : st_out st0 = st_out st) by apply noted_out.
  destruct x.
  - destruct H2 as (y & o2 & G2 & -> & ->).
    assert (W1 : world F st1 g) by (eapply world_calm; [exact C1|apply S1|apply S1|exact W0]). assert (R1 : view F st1 s g m) by (eapply view_calm; eassumption).
    destruct (G2 g st1 s pb W1 R1 (exp_keeps _ _ _ _ _ _ (calm_trans _ _ _ C0 C1) EB)) as (w2 & st2 & EV2 & VI2 & C2 & S2 & O2).
    exists (vbool y), st2. split. { apply AV. exists y. split; [reflexivity|]. eapply cj_true; [exact EV1|eapply val_bool; exact VI1|]. destruct y; [eapply cj_true; [exact EV2|eapply val_bool; exact VI2|apply cj_all]|eapply cj_false; [exact EV2|eapply val_bool; exact VI2]]. }
    split; [constructor; split; reflexivity|]. split; [exact (calm_trans _ _ _ C0 (calm_trans _ _ _ C1 C2))|]. split; [exact S2|]. rewrite O2, O1, O0, app_assoc. reflexivity.
  - subst v o. exists (vbool false), st1. split. { apply AV. exists false. split; [reflexivity|]. eapply cj_false; [exact EV1|eapply val_bool; exact VI1]. }
    split; [constructor; split; reflexivity|]. split; [exact (calm_trans _ _ _ C0 C1)|]. split; [exact S1|]. rewrite O1, O0. reflexivity.
Qed.
Lemma good_cond : forall m c (x : bool) a b v o1 o2, exp_good m c (BoolV x) o1 -> exp_good m (if x then a else b) v o2 -> exp_good m (Cond c a b) v (o1 ++ o2).
Proof.
  intros m c x a b v o1 o2 G1 G2 g st s p W R E. inversion E as [| | | |p' pc pa pb c' a' b' CO EC EA EB| | |]; subst. destruct (code_form _ _ _ _ CO) as (tok & FO).
  assert (ST : standard st s $"if") by (eapply view_standard; try eassumption; vm_compute; tauto).
  assert (PL : Forall plain [pc; pa; pb]) by (repeat (constructor; [eapply exp_plain; eassumption|]); constructor).
  set (st0 := noted st s tok) in *. assert (C0 : calm st st0) by apply calm_noted. assert (S0 : sane st0) by (apply sane_noted; eapply world_sane; exact W).
  assert (W0 : world F st0 g) by (eapply world_calm; [exact C0|apply S0|apply S0|exact W]). assert (R0 : view F st0 s g m) by (eapply view_calm; eassumption).
  destruct (G1 g st0 s pc W0 R0 (exp_keeps _ _ _ _ _ _ C0 EC)) as (w1 & st1 & EV1 & VI1 & C1 & S1 & O1).
  assert (O0 : st_out st0 = st_out st) by apply noted_out.
  assert (W1 : world F st1 g) by (eapply world_calm; [exact C1|apply S1|apply S1|exact W0]). assert (R1 : view F st1 s g m) by (eapply view_calm; eassumption).
  assert (EX : exp_at st1 (if x then pa else pb) (if x then a else b)) by (apply (exp_keeps _ _ _ _ _ _ (calm_trans _ _ _ C0 C1)); destruct x; assumption).
  destruct (G2 g st1 s _ W1 R1 EX) as (w2 & st2 & EV2 & VI2 & C2 & S2 & O2). exists w2, st2.
  split. { apply (if_chooses st s p tok pc pa [pb] w1 x st1 FO ST ltac:(cbn; lia) PL EV1 (val_bool _ _ _ VI1)). exact EV2. }
  split; [exact VI2|]. split; [exact (calm_trans _ _ _ C0 (calm_trans _ _ _ C1 C2))|]. split; [exact S2|]. rewrite O2, O1, O0, app_assoc. reflexivity.
Qed.
(** ** Calls *)
Lemma params_nth : forall st xs rs vs, length xs = length vs -> NoDup xs -> vals_are st rs vs -> forall x v, parameters_of xs vs x = Some v ->
  exists k i w, nth_error xs k = Some x /\ nth_error rs k = Some (P i (OVar w)) /\ val_is st w v /\ ~ In x (skipn (S k) xs).
Proof.
  intro st. induction xs as [|y xs IH]; intros rs vs L ND FA x v H; [discriminate|]. destruct vs as [|v0 vs]; [discriminate|]. inversion FA as [|i w v0' rs' vs' V1 T1]; subst. inversion ND as [|y' xs' NI ND']; subst.
  cbn [parameters_of] in H. unfold update in H. destruct (list_eq_dec ascii_dec x y) as [-> | NE].
  - injection H as ->. exists 0%nat, i, w. repeat split; auto.
  - destruct (IH rs' vs ltac:(cbn in L; lia) ND' T1 x v H) as (k & j & u & H1 & H2 & H3 & H4). exists (S k), j, u. repeat split; auto.
Qed.
Lemma keeps_fresh : forall c st st', scope_at st c = None -> keeps (eq c) (its_variables F c) st st' -> calm st st'.
Proof.
  intros c st st' FR (V & S & N & R). split; [exact V|]. split; [|split; [|exact R]].
  - intros u sc H. destruct (S u sc H) as (sc' & H' & A1 & A2 & A3 & A4 & A5 & A6). exists sc'. repeat split; auto. intros _. apply A6. intros <-. congruence.
  - intros u n (sc & H) _. apply N; [exists sc; exact H|]. intros [-> _]. congruence.
Qed.
Lemma calm_starts : forall st st1 s c ds name names args, starts_call st st1 s c ds name names args -> calm st st1.
Proof.
  intros st st1 s c ds name names args (FR & (sc & csc & fill & H & HS & HC & _) & OT & V & D1 & D2 & D3 & D4 & D5).
  split; [exact V|]. split.
  { intros u x E. assert (u <> c) by congruence. destruct (Pos.eq_dec u s) as [-> | NS]; [|exists x; rewrite OT by assumption; repeat split; auto].
    assert (x = sc) by congruence. subst x. eexists. split; [exact HS|]. repeat split; reflexivity. }
  split; [|split; [intros l d Q; unfold dict_at in *; rewrite D1; exact Q|repeat split; assumption]].
  intros u n (x & E) _. assert (u <> c) by congruence. unfold var_at. destruct (Pos.eq_dec u s) as [-> | NS]; [|rewrite OT by assumption; reflexivity].
  rewrite HS, H. reflexivity.
Qed.
Lemma calm_unlinked : forall st st' s c, unlinked st st' s c -> calm st st'.
Proof.
  intros st st' s c (sc & csc & H & C & ->). split; [auto|].
  assert (X : forall u x, scope_at st u = Some x -> exists x', scope_at (with_scopes (PositiveMap.add s (set_next None sc) (PositiveMap.add c (set_prev None csc) (st_scopes st))) st) u = Some x' /\
    s_global x' = s_global x /\ s_closure x' = s_closure x /\ s_name x' = s_name x /\ s_tracing x' = s_tracing x /\ s_needlv x' = s_needlv x /\ s_inret x' = s_inret x /\ s_vars x' = s_vars x).
  { intros u x E. unfold scope_at in *. cbn [st_scopes with_scopes]. rewrite !find_add. destruct (Pos.eqb_spec u s) as [-> | N1].
    - eexists. split; [reflexivity|]. assert (x = sc) by congruence. subst x. repeat split; reflexivity.
    - destruct (Pos.eqb_spec u c) as [-> | N2]; [eexists; split; [reflexivity|]; assert (x = csc) by congruence; subst x; repeat split; reflexivity|]. exists x. repeat split; auto. }
  split. { intros u x E. destruct (X u x E) as (x' & E' & A1 & A2 & A3 & A4 & A5 & A6 & A7). exists x'. repeat split; auto. }
  split; [|repeat split; auto].
  intros u n (x & E) _. destruct (X u x E) as (x' & E' & _ & _ & _ & _ & _ & _ & A6). unfold var_at. rewrite E, E', A6. reflexivity.
Qed.
Lemma sane_unlinked : forall st st' s c, unlinked st st' s c -> sane st -> sane st'.
Proof.
  intros st st' s c (sc & csc & H & C & ->) [NU HN]. split; [|exact HN]. intros u x E. unfold scope_at in E. cbn [st_scopes with_scopes] in E. rewrite !find_add in E.
  change (st_nsid (with_scopes (PositiveMap.add s (set_next None sc) (PositiveMap.add c (set_prev None csc) (st_scopes st))) st)) with (st_nsid st).
  destruct (Pos.eqb_spec u s) as [-> | N1]; [eapply NU; exact H|]. destruct (Pos.eqb_spec u c) as [-> | N2]; [eapply NU; exact C|]. eapply NU; exact E.
Qed.
Definition stm_good (m : store) (b : stm) (m' : store) (v : value) (r : bool) (o : str) : Prop := forall g st s p, world F st g -> frame F st s g m -> leaving st s false -> stm_at st p b ->
  exists w st', evals p s st (Val w) st' /\ res_is st' w v /\ keeps (eq s) (its_variables F s) st st' /\ world F st' g /\ frame F st' s g m' /\ leaving st' s r /\ st_out st' = st_out st ++ o.
(** The call of a function of the program. *)
Lemma fun_calls : forall m f xs b vs m' v r o2 g st0 s rs fn i fv, F f = Some (xs, b) -> length xs = length vs -> NoDup xs -> Forall (tidy F) xs ->
  stm_good (parameters_of xs vs) b m' v r o2 -> v <> Nothing -> world F st0 g -> view F st0 s g m -> var_at st0 g f = Some (P i (OVar fv)) -> is_fn fv fn -> vals_are st0 rs vs ->
  exists w st', calls fn rs s st0 (Val (Some w)) st' /\ val_is st' w v /\ calm st0 st' /\ sane st' /\ st_out st' = st_out st0 ++ o2.
Proof.
  intros m f xs b vs m' v r o2 g st0 s rs fn i fv FF L ND TI GB VN W0 R0 VF IF VS.
  pose proof W0 as (NU0 & HN0 & (gs & G & _) & MA & _ & DF). destruct (DF f xs b FF) as (i0 & fv0 & fn0 & fname & modname & fp & body & more & ds & VF0 & IF0 & SP & CD & XD & PA & SB).
  assert (fv0 = fv) by congruence. subst fv0. assert (fn0 = fn) by (destruct IF as [_ E1]; destruct IF0 as [_ E2]; congruence). subst fn0.
  destruct R0 as ((sc & H & EG & _) & FX0 & _).
  destruct (closure_enters st0 s sc ds fname modname fp body more rs xs H NU0 HN0) as (st1 & c & SC & NU1 & HN1 & EC & RUN).
  { rewrite EG. eapply exists_at; exact G. } { apply asks_exists; exact XD. } { exact PA. }
  pose proof (calm_starts _ _ _ _ _ _ _ _ SC) as C1. destruct SC as (FR & (sc' & csc & fill & H' & HS & HC & N1 & N2 & N3 & N4 & N5 & (N6 & NLV) & N7 & N8 & N9 & N10 & N11 & N12) & OT & REST).
  assert (sc' = sc) by congruence. subst sc'. assert (NSC : s <> c) by congruence.
  assert (LR : length rs = length xs). { rewrite L. eapply vals_length; exact VS. }
  assert (W1 : world F st1 g) by (eapply world_calm; [exact C1|assumption|assumption|exact W0]).
  assert (TX : forall x, In x xs -> tidy F x) by (apply Forall_forall; exact TI).
  assert (NP : forall x q, tidy F x -> In q private -> x <> q) by (intros x q (_ & _ & T & _) I ->; contradiction).
  assert (R1 : frame F st1 c g (parameters_of xs vs)).
  { split. { exists csc. split; [exact HC|]. split; [congruence|]. destruct XD as (dsc & HD & ND0). rewrite (NLV _ HD). exact ND0. } split; [|split].
    - intros n FN. right. destruct (MA n FN) as [_ NPR]. apply N12.
      + intro I. destruct (TX n I) as (_ & T2 & _ & T4). destruct FN; [contradiction|congruence].
      + intros ->. apply NPR. vm_compute. tauto.
      + intros ->. apply NPR. vm_compute. tauto.
    - intros x v0 PX. destruct (params_nth st0 xs rs vs L ND VS x v0 PX) as (k & i1 & w & K1 & K2 & VI & K4). exists i1, w. split; [|eapply val_keeps; [exact C1|exact VI]].
      assert (T : tidy F x) by (apply TX; eapply nth_error_In; exact K1). apply (N9 k x); [exact K1| |exact K4|apply NP; [exact T|vm_compute; tauto]|apply NP; [exact T|vm_compute; tauto]].
      rewrite nth_error_app1; [exact K2|]. apply nth_error_Some. congruence.
    - left. apply N12; [|str_ne|str_ne]. intro I. apply TX in I. apply (NP _ $"###traceon###" I); [vm_compute; tauto|reflexivity]. }
  assert (L1 : leaving st1 c false) by (exists csc; auto).
  assert (SB1 : stm_at st1 body b) by (eapply stm_keeps; [exact C1|exact SB]).
  destruct (GB g st1 c body W1 R1 L1 SB1) as (w & st2 & EV & VI & K & W2 & R2 & L2 & O2). destruct w as [w|]; [|contradiction]. cbn [res_is] in VI.
  destruct (frame_evals _ _ _ _ _ NU1 EV _ _ HS) as (sc2 & S2 & _ & _ & _ & _ & V & _). destruct (V NSC) as (vv & ->).
  destruct (frame_evals _ _ _ _ _ NU1 EV _ _ HC) as (csc2 & C2 & _). destruct (pop_unlinks st2 s c _ _ NSC S2 eq_refl C2) as (st' & P1 & P2).
  exists w, st'. split.
  { destruct EV as (n & EV & _). exists (S n). split; [|discriminate]. cbn [run step r_call]. unfold call. rewrite CD, RUN. unfold bind at 1, try_catch. rewrite EV. unfold bind. rewrite P1. reflexivity. }
  split; [eapply val_keeps; [eapply calm_unlinked; exact P2|exact VI]|].
  split. { apply (keeps_fresh c); [exact FR|]. eapply keeps_trans; [apply calm_any; exact C1|]. eapply keeps_trans; [exact K|]. apply calm_any. eapply calm_unlinked; exact P2. }
  split; [eapply sane_unlinked; [exact P2|eapply world_sane; exact W2]|].
  destruct P2 as (x1 & x2 & _ & _ & ->). cbn [st_out with_scopes]. rewrite O2. destruct REST as (_ & _ & REST & _). rewrite REST. reflexivity.
Qed.
Lemma good_call : forall m f es xs b vs o1 m' v r o2, F f = Some (xs, b) -> exps_good m es vs o1 -> length xs = length vs -> NoDup xs -> Forall (tidy F) xs ->
  stm_good (parameters_of xs vs) b m' v r o2 -> v <> Nothing -> exp_good m (Call f es) v (o1 ++ o2).
Proof.
  intros m f es xs b vs o1 m' v r o2 FF GS L ND TI GB VN g st s p W R E. inversion E as [| | | | |p' f' ps es' CO ES| |]; subst.
  destruct (view_fun _ _ _ _ _ _ _ _ W R FF) as (i & fv & fn & VG & IF & M & SP).
  destruct (ordinary_call m g st s p f ps es vs o1 fn W R CO ES GS M SP) as (rs & st0 & VS & C0 & S0 & O0 & Q).
  assert (W0 : world F st0 g) by (eapply world_calm; [exact C0|apply S0|apply S0|exact W]). assert (R0 : view F st0 s g m) by (eapply view_calm; eassumption).
  assert (VF : var_at st0 g f = Some (P i (OVar fv))) by (destruct C0 as (_ & _ & KV & _); rewrite KV; [exact VG|destruct W as (_ & _ & (gs & G & _) & _); exists gs; exact G|intros []]).
  destruct (fun_calls m f xs b vs m' v r o2 g st0 s rs fn i fv FF L ND TI GB VN W0 R0 VF IF VS) as (w & st' & CA & VI & C1 & S1 & O1).
  exists w, st'. split; [apply Q; exact CA|]. split; [exact VI|]. split; [eapply calm_trans; eassumption|]. split; [exact S1|]. rewrite O1, O0, app_assoc. reflexivity.
Qed.

(** ** Statements *)
Definition after (g s : sid) (st st' : state) (m' : store) (r : bool) (o : str) : Prop :=
  keeps (eq s) (its_variables F s) st st' /\ world F st' g /\ frame F st' s g m' /\ leaving st' s r /\ st_out st' = st_out st ++ o.
Lemma after_trans : forall g s st st1 st2 m1 r1 o1 m2 r2 o2, after g s st st1 m1 r1 o1 -> after g s st1 st2 m2 r2 o2 -> after g s st st2 m2 r2 (o1 ++ o2).
Proof.
  intros g s st st1 st2 m1 r1 o1 m2 r2 o2 (K1 & _ & _ & _ & O1) (K2 & W2 & R2 & L2 & O2). split; [eapply keeps_trans; eassumption|]. repeat (split; [assumption|]). rewrite O2, O1, app_assoc. reflexivity.
Qed.
Lemma after_calm : forall g s st st' m r o, world F st g -> frame F st s g m -> leaving st s r -> calm st st' -> sane st' -> st_out st' = st_out st ++ o -> after g s st st' m r o.
Proof.
  intros g s st st' m r o W R L C S O. split; [apply calm_any, C|]. split; [eapply world_calm; [exact C|apply S|apply S|exact W]|]. split; [eapply frame_calm; eassumption|].
  split; [eapply leaving_calm; eassumption|exact O].
Qed.
Lemma after_noted : forall g s st m r tok, world F st g -> frame F st s g m -> leaving st s r -> after g s st (noted st s tok) m r [].
Proof.
  intros g s st m r tok W R L. apply after_calm; try assumption; [apply calm_noted|apply sane_noted; eapply world_sane; exact W|]. rewrite app_nil_r. apply noted_out.
Qed.
Lemma own_keeps : forall n s, fixed F n -> forall u, ~ its_variables F s u n.
Proof. intros n s FN u (_ & N & _). contradiction. Qed.
Lemma own_macros : forall s u, ~ its_variables F s u $"###macros###".
Proof. intros s u (_ & _ & N & _). apply N. reflexivity. Qed.
Lemma after_var : forall g s st st' m r x v w, world F st g -> frame F st s g m -> leaving st s r -> tidy F x -> val_is st w v -> var_becomes st st' s x w -> ahead st st' -> numbered st' ->
  after g s st st' (update m x v) r [].
Proof.
  intros g s st st' m r x v w W R L (T1 & T2 & T3 & T4) VI B AH NU. pose proof B as ((i & BV) & BO & BS & BX & BK & B1 & B2 & B3 & B4 & B5 & B6).
  assert (NF : ~ fixed F x) by (intros [X|X]; [contradiction|congruence]).
  assert (NP : forall q, In q private -> q <> x) by (intros q I ->; contradiction).
  assert (K : keeps (eq s) (its_variables F s) st st').
  { eapply keeps_weaken; [| |apply keeps_changes, (changes_becomes _ _ _ _ _ B)]; [intros u []|]. intros u n (-> & ->). split; [reflexivity|]. split; [exact NF|]. split; intro QX; apply T3; rewrite QX; vm_compute; tauto. }
  assert (HN : heap_numbered st') by (eapply heap_ahead; [eapply (proj2 (world_sane _ _ _ W))|exact AH|assumption|assumption]).
  split; [exact K|]. split. { eapply world_keeps; [| |exact K|exact NU|exact HN|exact W]; [intros n FN u; apply own_keeps, FN|apply own_macros]. }
  destruct R as ((sc & H & EG & NL) & X & V & C). split; [|split].
  - pose proof K as (_ & KS & KN & _). destruct (KS s sc H) as (sc' & H' & G' & _ & _ & _ & NL' & _). split; [exists sc'; split; [exact H'|]; split; congruence|].
    assert (OTH : forall n, n <> x -> var_at st' s n = var_at st s n) by (intros n N; apply BO; congruence).
    split. { intros n FN. rewrite OTH; [auto|intros ->; contradiction]. }
    split. { intros y u MY. unfold update in MY. destruct (list_eq_dec ascii_dec y x) as [-> | NE]; [injection MY as <-; exists i, w; split; [exact BV|eapply val_keeps; [exact K|exact VI]]|]. rewrite OTH by exact NE. destruct (V y u MY) as (i' & w' & VA' & VI'). exists i', w'. split; [exact VA'|eapply val_keeps; [exact K|exact VI']]. }
    destruct C as [C|(b & (ti & to & C1) & (tj & C2))]; [left; rewrite OTH by (apply NP; vm_compute; tauto); exact C|right; exists b].
    split; [exists ti, to|exists tj]; rewrite OTH by (apply NP; vm_compute; tauto); assumption.
  - destruct L as (lc & LH & LI). assert (lc = sc) by congruence. subst lc. assert (XS : scope_exists st' s) by (apply BX; exists sc; exact H). destruct XS as (sc' & H'). exists sc'. split; [exact H'|].
    destruct (BK s sc sc' H H') as (_ & _ & _ & _ & _ & _ & _ & I & _). congruence.
  - rewrite app_nil_r. exact B3.
Qed.
(** Expressions where the variables are those of the scope. *)
Definition exp_fit (m : store) (e : exp) (v : value) (o : str) : Prop := forall g st s p, world F st g -> frame F st s g m -> exp_at st p e ->
  exists w st', evals p s st (Val (Some w)) st' /\ val_is st' w v /\ calm st st' /\ sane st' /\ st_out st' = st_out st ++ o.
Lemma exp_fits : forall m e v o, exp_good m e v o -> exp_fit m e v o.
Proof. intros m e v o G g st s p W R. exact (G g st s p W (frame_view _ _ _ _ _ R)). Qed.
Lemma stm_exp : forall m e v o, exp_fit m e v o -> stm_good m (Exp e) m v false o.
Proof.
  intros m e v o G g st s p W R L E. assert (EE : exp_at st p e) by (inversion E; subst; assumption). destruct (G g st s p W R EE) as (w & st' & EV & VI & C & S & O).
  exists (Some w), st'. split; [exact EV|]. split; [exact VI|]. apply after_calm; assumption.
Qed.
Lemma stm_return : forall m e v o, yields F m e v o -> exp_good m e v o -> stm_good m (Return e) m v true o.
Proof.
  intros m e v o Y G g st s p W R L E. inversion E as [|p' pe e' CO EE| | | | | | |]; subst.
  assert (GS : exps_good m [e] [v] (o ++ [])) by (apply exps_cons; [assumption|assumption|apply exps_nil]). rewrite app_nil_r in GS.
  destruct (word_call m g st s p $"return" [pe] [e] _ _ W (frame_view _ _ _ _ _ R) CO (es_cons _ _ _ _ _ EE (es_nil _)) GS) as (rs & st1 & VS & C1 & S1 & O1 & Q); [vm_compute; tauto|].
  destruct (vals_one _ _ _ VS) as (i1 & w1 & -> & V1).
  destruct (after_calm g s st st1 m false o W R L C1 S1 O1) as (K1 & W1 & R1 & (sc & H & I) & _).
    set (st2 := with_scopes (PositiveMap.add s (set_inret true sc) (st_scopes st1)) st1).
  assert (F2 : forall u, scope_at st2 u = if Pos.eqb u s then Some (set_inret true sc) else scope_at st1 u) by (intro u; apply find_scope_add).
  assert (VA : forall u n, var_at st2 u n = var_at st1 u n). { intros u n. unfold var_at. rewrite F2. destruct (Pos.eqb_spec u s) as [-> | N]; [rewrite H; reflexivity|reflexivity]. }
  assert (K2 : keeps (eq s) none2 st1 st2).
  { split; [auto|]. split. { intros u x X. rewrite F2. destruct (Pos.eqb_spec u s) as [-> | N]; [|exists x; repeat split; auto]. eexists. split; [reflexivity|]. assert (x = sc) by congruence. subst x. repeat split; auto. intro NA. exfalso. apply NA. reflexivity. }
    split; [intros u n _ _; apply VA|]. repeat split; auto. }
  assert (NU2 : numbered st2). { intros u x X. rewrite F2 in X. change (st_nsid st2) with (st_nsid st1). destruct (Pos.eqb_spec u s) as [-> | N]; [eapply (proj1 S1); exact H|eapply (proj1 S1); exact X]. }
  exists (Some w1), st2. split; [apply Q; apply (return_sets st1 s sc); exact H|]. split; [eapply val_keeps; [exact K2|exact V1]|].
  split; [eapply keeps_trans; [exact K1|eapply keeps_weaken; [| |exact K2]; [auto|intros u n []]]|].
  split. { eapply world_keeps; [| |exact K2|exact NU2|exact (proj2 S1)|exact W1]; intros; intros []. }
  split; [|split; [exists (set_inret true sc); split; [rewrite F2, Pos.eqb_refl; reflexivity|reflexivity]|exact O1]].
  destruct R1 as ((sc' & H' & EG & NL) & X & V & C). assert (sc' = sc) by congruence. subst sc'.
  split; [exists (set_inret true sc); split; [rewrite F2, Pos.eqb_refl; reflexivity|]; split; [exact EG|exact NL]|]. split; [intros n FN; rewrite VA; auto|]. split; [intros x u MX; rewrite VA; destruct (V x u MX) as (i' & w' & VA' & VI'); exists i', w'; split; [exact VA'|eapply val_keeps; [exact K2|exact VI']]|].
  destruct C as [C|(b & C)]; [left; rewrite VA; exact C|right; exists b; eapply collects_same; [intro n; apply VA|exact C]].
Qed.
Lemma putting_ahead : forall s f, rel ahead (mod_scope s f).
Proof. intros s f st. unfold ahead, mod_scope, bind, reads. destruct (get_scope s st); cbn; lia. Qed.
Lemma ahead_refl : forall st, ahead st st. Proof. intro st. unfold ahead. lia. Qed.
Lemma ahead_trans : forall a b c, ahead a b -> ahead b c -> ahead a c. Proof. unfold ahead. intros. lia. Qed.
Lemma stm_def : forall m x e v o, tidy F x -> exp_fit m e v o -> stm_good m (Def x e) (update m x v) v false o.
Proof.
  intros m x e v o T G g st s p W R L E. inversion E as [| |p' px pe x' e' CO SX EE| | | | | |]; subst. destruct (code_form _ _ _ _ CO) as (tok & FO).
  assert (ST : standard st s $"def") by (eapply word_standard; try eassumption; vm_compute; tauto).
  pose proof (after_noted g s st m false tok W R L) as A0. pose proof A0 as (K0 & W0 & R0 & L0 & O0).
  destruct (G g _ s pe W0 R0 (exp_keeps _ _ _ _ _ _ K0 EE)) as (w & st1 & EV & VI & C1 & S1 & O1).
  pose proof (after_calm g s _ st1 m false o W0 R0 L0 C1 S1 O1) as A1. pose proof A1 as (_ & W1 & R1 & L1 & _). pose proof R1 as ((sc1 & H1 & _) & _).
  destruct (set_becomes st1 s x w sc1 H1) as [K1 K2]. set (st2 := snd (scope_set s x (P (st_nid st1) (OVar w)) (with_nid (Pos.succ (st_nid st1)) st1))) in *.
  assert (EV2 : evals p s st (Val (Some w)) st2).
  { pose proof ST as (f & SB & M). destruct (form_scope _ _ _ _ M) as (sc & H).
    eapply (def_tail BDef) with (tgt := s); [left; reflexivity|exact FO|exact ST|exact SX|eapply exp_plain; exact EE|exact EV|exists sc; split; [exact H|reflexivity]| |discriminate].
    unfold bind. rewrite K1. reflexivity. }
  assert (AH : ahead st1 st2) by (exact (rel_scope_set ahead putting_ahead s x (P (st_nid st1) (OVar w)) (with_nid (Pos.succ (st_nid st1)) st1))).
  exists (Some w), st2. split; [exact EV2|].
  assert (NU2 : numbered st2) by (eapply evals_numbered; [apply (world_sane _ _ _ W)|exact EV2]).
  pose proof (after_var g s st1 st2 m false x v w W1 R1 L1 T VI K2 AH NU2) as A2.
  pose proof A2 as (KK & _). split; [eapply val_keeps; [exact KK|exact VI]|].
  pose proof (after_trans _ _ _ _ _ _ _ _ _ _ _ A0 (after_trans _ _ _ _ _ _ _ _ _ _ _ A1 A2)) as A. rewrite app_nil_r in A. exact A.
Qed.
Lemma stm_set : forall m x e v o, tidy F x -> m x <> None -> exp_fit m e v o -> stm_good m (Set_ x e) (update m x v) v false o.
Proof.
  intros m x e v o T MX G g st s p W R L E. inversion E as [| | |p' px pe x' e' CO SX EE| | | | |]; subst. destruct (code_form _ _ _ _ CO) as (tok & FO).
  assert (ST : standard st s $"setf") by (eapply word_standard; try eassumption; vm_compute; tauto).
  pose proof (after_noted g s st m false tok W R L) as A0. pose proof A0 as (K0 & W0 & R0 & L0 & O0).
  destruct (G g _ s pe W0 R0 (exp_keeps _ _ _ _ _ _ K0 EE)) as (w & st1 & EV & VI & C1 & S1 & O1).
  pose proof (after_calm g s _ st1 m false o W0 R0 L0 C1 S1 O1) as A1. pose proof A1 as (_ & W1 & R1 & L1 & _). pose proof R1 as ((sc1 & H1 & _) & _ & VV & _).
  assert (AS : assigns st1 s x s). { destruct (m x) as [v0|] eqn:MV; [|congruence]. destruct (VV x v0 MV) as (i & w0 & V0 & _). eapply as_own; [exists sc1; exact H1|exact V0]. }
  destruct (set_assigns st1 s x s w (proj1 T) AS) as (st2 & K1 & K2).
  assert (EV2 : evals p s st (Val (Some w)) st2).
  { eapply mono_setf_tail; [exact FO|exact ST|exact SX|eapply exp_plain; exact EE|exact EV| |discriminate]. unfold bind. rewrite K1. reflexivity. }
  assert (AH : ahead st1 st2). { pose proof (rel_set_in_scopes ahead ahead_refl ahead_trans putting_ahead s x (P (st_nid st1) (OVar w)) (with_nid (Pos.succ (st_nid st1)) st1)) as Q. rewrite K1 in Q. exact Q. }
  exists (Some w), st2. split; [exact EV2|].
  assert (NU2 : numbered st2) by (eapply evals_numbered; [apply (world_sane _ _ _ W)|exact EV2]).
  pose proof (after_var g s st1 st2 m false x v w W1 R1 L1 T VI K2 AH NU2) as A2.
  pose proof A2 as (KK & _). split; [eapply val_keeps; [exact KK|exact VI]|].
  pose proof (after_trans _ _ _ _ _ _ _ _ _ _ _ A0 (after_trans _ _ _ _ _ _ _ _ _ _ _ A1 A2)) as A. rewrite app_nil_r in A. exact A.
Qed.
Definition stms_good (m : store) (ss : list stm) (v0 : value) (m' : store) (v : value) (r : bool) (o : str) : Prop := forall g st s ps w0, world F st g -> frame F st s g m -> leaving st s false ->
  stms_at st ps ss -> res_is st w0 v0 -> exists w st', in_sequence s ps w0 st w st' /\ res_is st' w v /\ after g s st st' m' r o.
Definition loop_good (m : store) (c : exp) (b : stm) (v0 : value) (m' : store) (v : value) (r : bool) (o : str) : Prop := forall g st s pc pb w0, world F st g -> frame F st s g m -> leaving st s false ->
  exp_at st pc c -> stm_at st pb b -> res_is st w0 v0 -> exists n w st', rounds_of pc pb s n w0 st w st' /\ res_is st' w v /\ after g s st st' m' r o.
Lemma stms_keeps : forall A W st st' p e, keeps A W st st' -> stms_at st p e -> stms_at st' p e.
Proof. intros A W st st' p e K. apply (stm_keeps2 A W st st' K). Qed.
Lemma after_refl : forall g s st m r, world F st g -> frame F st s g m -> leaving st s r -> after g s st st m r [].
Proof. intros g s st m r W R L. apply after_calm; try assumption; [apply calm_refl|eapply world_sane; exact W|rewrite app_nil_r; reflexivity]. Qed.
Lemma stms_end : forall m v0, stms_good m [] v0 m v0 false [].
Proof. intros m v0 g st s ps w0 W R L E V. inversion E; subst. exists w0, st. split; [constructor|]. split; [exact V|apply after_refl; assumption]. Qed.
Lemma stms_next : forall m b ss v0 m1 v1 o1 m2 v2 r o2, stm_good m b m1 v1 false o1 -> stms_good m1 ss v1 m2 v2 r o2 -> stms_good m (b :: ss) v0 m2 v2 r (o1 ++ o2).
Proof.
  intros m b ss v0 m1 v1 o1 m2 v2 r o2 G1 G2 g st s ps w0 W R L E V. inversion E as [|i l ps' s' ss' E1 E2]; subst.
  destruct (G1 g st s _ W R L E1) as (w1 & st1 & EV1 & VI1 & A1). pose proof A1 as (K1 & W1 & R1 & L1 & _).
  destruct (G2 g st1 s ps' w1 W1 R1 L1 (stms_keeps _ _ _ _ _ _ K1 E2) VI1) as (w2 & st2 & SQ & VI2 & A2).
  exists w2, st2. split; [eapply sq_next; eassumption|]. split; [exact VI2|eapply after_trans; eassumption].
Qed.
Lemma stms_leave : forall m b ss v0 m1 v1 o1, stm_good m b m1 v1 true o1 -> stms_good m (b :: ss) v0 m1 v1 true o1.
Proof.
  intros m b ss v0 m1 v1 o1 G1 g st s ps w0 W R L E V. inversion E as [|i l ps' s' ss' E1 E2]; subst.
  destruct (G1 g st s _ W R L E1) as (w1 & st1 & EV1 & VI1 & A1). pose proof A1 as (K1 & W1 & R1 & L1 & _).
  exists w1, st1. split; [eapply sq_return; eassumption|]. split; [exact VI1|exact A1].
Qed.
Lemma stms_plain : forall st ps ss, stms_at st ps ss -> Forall plain ps.
Proof. intros st ps ss H. induction H; constructor; [exact Logic.I|assumption]. Qed.
Lemma stm_block : forall m ss m' v r o, stms_good m ss NoV m' v r o -> stm_good m (Block ss) m' v r o.
Proof.
  intros m ss m' v r o G g st s p W R L E. inversion E as [| | | |p' ps ss' CO ES| | | |]; subst. destruct (code_form _ _ _ _ CO) as (tok & FO).
  assert (ST : standard st s $"do") by (eapply word_standard; try eassumption; vm_compute; tauto).
  pose proof (after_noted g s st m false tok W R L) as A0. pose proof A0 as (K0 & W0 & R0 & L0 & O0).
  destruct (G g _ s ps (Some vundef) W0 R0 L0 (stms_keeps _ _ _ _ _ _ K0 ES) (vi_none _ vundef eq_refl)) as (w & st' & SQ & VI & A).
  exists w, st'. split. { apply (do_value st s p $"do" tok ps ltac:(left; reflexivity) FO ST (stms_plain _ _ _ ES)). exact SQ. }
  split; [exact VI|]. exact (after_trans _ _ _ _ _ _ _ _ _ _ _ A0 A).
Qed.
Lemma stm_if : forall m c (x : bool) a b m' v r o1 o2, exp_fit m c (BoolV x) o1 -> stm_good m (if x then a else b) m' v r o2 -> stm_good m (If c a b) m' v r (o1 ++ o2).
Proof.
  intros m c x a b m' v r o1 o2 G1 G2 g st s p W R L E. inversion E as [| | | | |p' pc pa pb c' a' b' CO EC EA EB| | |]; subst. destruct (code_form _ _ _ _ CO) as (tok & FO).
  assert (ST : standard st s $"if") by (eapply word_standard; try eassumption; vm_compute; tauto).
  assert (PL : Forall plain [pc; pa; pb]) by (constructor; [eapply exp_plain; eassumption|]; repeat (constructor; [eapply stm_plain; eassumption|]); constructor).
  pose proof (after_noted g s st m false tok W R L) as A0. pose proof A0 as (K0 & W0 & R0 & L0 & O0).
  destruct (G1 g _ s pc W0 R0 (exp_keeps _ _ _ _ _ _ K0 EC)) as (w1 & st1 & EV1 & VI1 & C1 & S1 & O1).
  pose proof (after_trans _ _ _ _ _ _ _ _ _ _ _ A0 (after_calm g s _ st1 m false o1 W0 R0 L0 C1 S1 O1)) as A1. pose proof A1 as (K1 & W1 & R1 & L1 & _).
  assert (EX : stm_at st1 (if x then pa else pb) (if x then a else b)) by (apply (stm_keeps _ _ _ _ _ _ K1); destruct x; assumption).
  destruct (G2 g st1 s _ W1 R1 L1 EX) as (w2 & st2 & EV2 & VI2 & A2). exists w2, st2.
  split. { apply (if_chooses st s p tok pc pa [pb] w1 x st1 FO ST ltac:(cbn; lia) PL EV1 (val_bool _ _ _ VI1)). destruct x; exact EV2. }
  split; [exact VI2|]. exact (after_trans _ _ _ _ _ _ _ _ _ _ _ A1 A2).
Qed.
Lemma stm_when : forall m c a m' v r o1 o2, exp_fit m c (BoolV true) o1 -> stm_good m a m' v r o2 -> stm_good m (When c a) m' v r (o1 ++ o2).
Proof.
  intros m c a m' v r o1 o2 G1 G2 g st s p W R L E. inversion E as [| | | | | |p' pc pa c' a' CO EC EA| |]; subst. destruct (code_form _ _ _ _ CO) as (tok & FO).
  assert (ST : standard st s $"if") by (eapply word_standard; try eassumption; vm_compute; tauto).
  assert (PL : Forall plain [pc; pa]) by (constructor; [eapply exp_plain; eassumption|]; repeat (constructor; [eapply stm_plain; eassumption|]); constructor).
  pose proof (after_noted g s st m false tok W R L) as A0. pose proof A0 as (K0 & W0 & R0 & L0 & O0).
  destruct (G1 g _ s pc W0 R0 (exp_keeps _ _ _ _ _ _ K0 EC)) as (w1 & st1 & EV1 & VI1 & C1 & S1 & O1).
  pose proof (after_trans _ _ _ _ _ _ _ _ _ _ _ A0 (after_calm g s _ st1 m false o1 W0 R0 L0 C1 S1 O1)) as A1. pose proof A1 as (K1 & W1 & R1 & L1 & _).
  destruct (G2 g st1 s _ W1 R1 L1 (stm_keeps _ _ _ _ _ _ K1 EA)) as (w2 & st2 & EV2 & VI2 & A2). exists w2, st2.
  split. { apply (if_chooses st s p tok pc pa [] w1 true st1 FO ST ltac:(cbn; lia) PL EV1 (val_bool _ _ _ VI1)). exact EV2. }
  split; [exact VI2|]. exact (after_trans _ _ _ _ _ _ _ _ _ _ _ A1 A2).
Qed.
Lemma stm_when_not : forall m c a o, exp_fit m c (BoolV false) o -> stm_good m (When c a) m Nothing false o.
Proof.
  intros m c a o G1 g st s p W R L E. inversion E as [| | | | | |p' pc pa c' a' CO EC EA| |]; subst. destruct (code_form _ _ _ _ CO) as (tok & FO).
  assert (ST : standard st s $"if") by (eapply word_standard; try eassumption; vm_compute; tauto).
  assert (PL : Forall plain [pc; pa]) by (constructor; [eapply exp_plain; eassumption|]; repeat (constructor; [eapply stm_plain; eassumption|]); constructor).
  pose proof (after_noted g s st m false tok W R L) as A0. pose proof A0 as (K0 & W0 & R0 & L0 & O0).
  destruct (G1 g _ s pc W0 R0 (exp_keeps _ _ _ _ _ _ K0 EC)) as (w1 & st1 & EV1 & VI1 & C1 & S1 & O1).
  exists None, st1. split. { apply (if_no_else st s p tok pc pa w1 st1 FO ST PL EV1 (val_bool _ _ _ VI1)). split; reflexivity. }
  split; [reflexivity|]. exact (after_trans _ _ _ _ _ _ _ _ _ _ _ A0 (after_calm g s _ st1 m false o W0 R0 L0 C1 S1 O1)).
Qed.
Lemma loop_end : forall m c b v0 o, exp_fit m c (BoolV false) o -> loop_good m c b v0 m v0 false o.
Proof.
  intros m c b v0 o G g st s pc pb w0 W R L EC EB V. destruct (G g st s pc W R EC) as (w & st1 & EV & VI & C & SA & O). exists 0%nat, w0, st1.
  split; [eapply ro_end; [exact EV|apply tr_bool; eapply val_bool; exact VI]|]. split; [eapply res_keeps; [exact C|exact V]|apply after_calm; assumption].
Qed.
Lemma loop_next : forall m c b v0 o1 m1 v1 o2 m2 v2 r o3, exp_fit m c (BoolV true) o1 -> stm_good m b m1 v1 false o2 -> loop_good m1 c b v1 m2 v2 r o3 ->
  loop_good m c b v0 m2 v2 r (o1 ++ o2 ++ o3).
Proof.
  intros m c b v0 o1 m1 v1 o2 m2 v2 r o3 G1 G2 G3 g st s pc pb w0 W R L EC EB V. destruct (G1 g st s pc W R EC) as (w & st1 & EV & VI & C & SA & O).
  pose proof (after_calm g s st st1 m false o1 W R L C SA O) as A1. pose proof A1 as (K1 & W1 & R1 & L1 & _).
  destruct (G2 g st1 s pb W1 R1 L1 (stm_keeps _ _ _ _ _ _ K1 EB)) as (w2 & st2 & EV2 & VI2 & A2). pose proof A2 as (K2 & W2 & R2 & L2 & _). pose proof (keeps_trans _ _ _ _ _ K1 K2) as K12.
  destruct (G3 g st2 s pc pb w2 W2 R2 L2 (exp_keeps _ _ _ _ _ _ K12 EC) (stm_keeps _ _ _ _ _ _ K12 EB) VI2) as (n & w3 & st3 & RO & VI3 & A3).
  exists (S n), w3, st3. split; [eapply ro_more; [exact EV|apply tr_bool; eapply val_bool; exact VI|exact EV2|exact L2|exact RO]|]. split; [exact VI3|].
  exact (after_trans _ _ _ _ _ _ _ _ _ _ _ A1 (after_trans _ _ _ _ _ _ _ _ _ _ _ A2 A3)).
Qed.
Lemma loop_leave : forall m c b v0 o1 m1 v1 o2, exp_fit m c (BoolV true) o1 -> stm_good m b m1 v1 true o2 -> loop_good m c b v0 m1 v1 true (o1 ++ o2).
Proof.
  intros m c b v0 o1 m1 v1 o2 G1 G2 g st s pc pb w0 W R L EC EB V. destruct (G1 g st s pc W R EC) as (w & st1 & EV & VI & C & SA & O).
  pose proof (after_calm g s st st1 m false o1 W R L C SA O) as A1. pose proof A1 as (K1 & W1 & R1 & L1 & _).
  destruct (G2 g st1 s pb W1 R1 L1 (stm_keeps _ _ _ _ _ _ K1 EB)) as (w2 & st2 & EV2 & VI2 & A2). pose proof A2 as (K2 & W2 & R2 & L2 & _).
  exists 1%nat, w2, st2. split; [eapply ro_return; [exact EV|apply tr_bool; eapply val_bool; exact VI|exact EV2|exact L2]|]. split; [exact VI2|]. exact (after_trans _ _ _ _ _ _ _ _ _ _ _ A1 A2).
Qed.
Lemma stm_while : forall m c b m' v r o, loop_good m c b NoV m' v r o -> stm_good m (While c b) m' v r o.
Proof.
  intros m c b m' v r o G g st s p W R L E. inversion E as [| | | | | | |p' pc pb c' b' CO EC EB|]; subst. destruct (code_form _ _ _ _ CO) as (tok & FO).
  assert (ST : standard st s $"while") by (eapply word_standard; try eassumption; vm_compute; tauto).
  assert (PL : Forall plain [pc; pb]) by (constructor; [eapply exp_plain; eassumption|]; constructor; [eapply stm_plain; eassumption|constructor]).
  pose proof (after_noted g s st m false tok W R L) as A0. pose proof A0 as (K0 & W0 & R0 & L0 & O0).
  destruct (G g _ s pc pb (Some vundef) W0 R0 L0 (exp_keeps _ _ _ _ _ _ K0 EC) (stm_keeps _ _ _ _ _ _ K0 EB) (vi_none _ vundef eq_refl)) as (n & w & st' & RO & VI & A).
  exists w, st'. split. { apply (while_value st s p tok pc pb FO ST PL). exists n. exact RO. }
  split; [exact VI|]. exact (after_trans _ _ _ _ _ _ _ _ _ _ _ A0 A).
Qed.
(** Printing. *)
Lemma line_one : forall t, line_of [t] = t.
Proof. intros [|c t]; reflexivity. Qed.
Lemma stm_print : forall m e v t o, yields F m e v o -> exp_good m e v o -> text_of v = Some t -> stm_good m (Print e) m (TextV t) false (o ++ t ++ [c_nl]).
Proof.
  intros m e v t o Y G TX g st s p W R L E. inversion E as [| | | | | | | |p' pe e' CO EE]; subst.
  assert (GS : exps_good m [e] [v] (o ++ [])) by (apply exps_cons; [assumption|assumption|apply exps_nil]). rewrite app_nil_r in GS.
  destruct (word_call m g st s p $"println" [pe] [e] _ _ W (frame_view _ _ _ _ _ R) CO (es_cons _ _ _ _ _ EE (es_nil _)) GS) as (rs & st1 & VS & C1 & S1 & O1 & Q); [vm_compute; tauto|].
  destruct (vals_one _ _ _ VS) as (i1 & w1 & -> & V1).
  pose proof (after_calm g s st st1 m false o W R L C1 S1 O1) as A1. pose proof A1 as (_ & W1 & R1 & L1 & _).
  assert (SH : Forall2 (shows s st1) [P i1 (OVar w1)] [t]) by (constructor; [eapply text_shown; [apply S1|eassumption|eassumption]|constructor]).
  pose proof R1 as ((sc & H & EG & NL) & X & V & C). destruct C as [C|(b & C)].
  - destruct (println_ok s st1 _ _ (exists_at _ _ _ H) C SH) as (r & K & IS). rewrite line_one in *. exists (Some r), (written_out st1 (t ++ [c_nl])). split; [apply Q; exact K|]. split; [constructor; exact IS|].
    apply (after_trans _ _ _ _ _ _ _ _ _ _ _ A1). apply after_calm; try assumption; [apply calm_out|reflexivity].
  - destruct (print_collects s st1 _ _ b C SH) as (_ & r & st2 & K & IS & CL). rewrite line_one in *. exists (Some r), st2. split; [apply Q; exact K|]. split; [constructor; exact IS|].
    apply (after_trans _ _ _ _ _ _ _ _ _ _ _ A1). destruct CL as ((j & B1) & B2 & B3 & B4 & B5 & B6 & B7 & B8 & B9 & B10 & B11).
    pose proof K as (f & _ & KC). pose proof (calls_numbered _ _ _ _ _ _ (proj1 S1) KC) as NU2. pose proof (calls_ahead _ _ _ _ _ _ KC) as AH.
    assert (HN2 : heap_numbered st2) by (eapply heap_ahead; [exact (proj2 S1)|exact AH|assumption|assumption]).
    destruct (frame_calls _ _ _ _ _ _ (proj1 S1) KC s sc H) as (sc2 & H2 & _). pose proof (B4 sc sc2 H H2) as SS.
    assert (NFB : ~ fixed F $"###tracebuffer###"). { intro FX. destruct W1 as (_ & _ & _ & MA & _). destruct (MA _ FX) as [_ NP]. apply NP. vm_compute. tauto. }
    assert (K2 : keeps (eq s) (its_variables F s) st1 st2).
    { split; [intros l es VE; unfold vec_at in *; rewrite B6; exact VE|]. split.
      { intros u x XE. destruct (Pos.eq_dec u s) as [-> | NS]; [|exists x; rewrite B3 by exact NS; repeat split; auto]. assert (x = sc) by congruence. subst x. exists sc2.
        destruct SS as (Q1 & Q2 & Q3 & Q4 & Q5 & Q6 & Q7 & Q8 & Q9 & Q10 & _). repeat split; auto. }
      split. { intros u n _ NW. apply B2. intro EQ. injection EQ as -> ->. apply NW. split; [reflexivity|]. split; [exact NFB|]. split; str_ne. }
      split; [intros l d DE; unfold dict_at in *; rewrite B7; exact DE|]. repeat split; assumption. }
    split; [exact K2|]. split. { eapply world_keeps; [| |exact K2|exact NU2|exact HN2|exact W1]; [intros n FN u; apply own_keeps, FN|apply own_macros]. }
    split; [|split; [|exact B5]].
    + split; [exists sc2; split; [exact H2|]; destruct SS as (Q1 & Q2 & Q3 & Q4 & Q5 & Q6 & Q7 & Q8 & Q9 & Q10 & _); split; congruence|]. split. { intros n FN. rewrite B2; [auto|]. intro EQ. injection EQ as ->. contradiction. }
      split. { intros x u MX. destruct (V x u MX) as (i & w & VA & VI). destruct (list_eq_dec ascii_dec x $"###tracebuffer###") as [-> | NE].
        - exfalso. destruct C as [_ (j' & CB)]. rewrite VA in CB. discriminate.
        - exists i, w. rewrite B2; [split; [exact VA|eapply val_keeps; [exact K2|exact VI]]|]. congruence. }
      right. exists (b ++ t). split; [|exists j; exact B1]. destruct C as [(ti & to & C) _]. exists ti, to. rewrite B2; [exact C|]. intro EQ. injection EQ as EQ. revert EQ. str_ne.
    + destruct L1 as (lc & LH & LI). assert (lc = sc) by congruence. subst lc. exists sc2. split; [exact H2|]. destruct SS as (_ & _ & _ & _ & _ & _ & _ & Q8 & _). congruence.
Qed.

(** ** Functions applied to the elements of lists *)
Lemma fixed_sees : forall m g st s f, world F st g -> view F st s g m -> fixed F f -> exists i v fn, var_at st g f = Some (P i (OVar v)) /\ is_fn v fn /\ sees st s f (Some (P i (OVar v))).
Proof.
  intros m g st s f (_ & _ & (gs & G & T) & M & B & D) ((sc & H & EG & _) & X & _) FX.
  assert (Q : exists i v fn, var_at st g f = Some (P i (OVar v)) /\ is_fn v fn).
  { destruct FX as [I|N]; [destruct (B f I) as (i & v & fn & VG & FN & _); eauto|]. destruct (F f) as [[xs b]|] eqn:FF; [|contradiction].
    destruct (D f xs b FF) as (i & v & fn & fname & modname & fp & body & more & ds & VG & FN & _). eauto. }
  destruct Q as (i & v & fn & VG & FN). exists i, v, fn. split; [exact VG|]. split; [exact FN|].
  destruct (X f FX) as [-> | XN]; [apply se_own; [eapply exists_at; exact G|exact VG]|]. eapply se_global; [exact H|exact XN| |rewrite EG; exact VG]. rewrite EG. eapply exists_at; exact G.
Qed.
Lemma named_call : forall m g st s p name pf f args es vs o1, world F st g -> view F st s g m -> code_of st p name (pf :: args) -> expr_sym pf f -> fixed F f -> exps_at st args es ->
  exps_good m es vs o1 -> In name plain_words ->
  exists i fv fn rs st1, var_at st g f = Some (P i (OVar fv)) /\ is_fn fv fn /\ vals_are st1 rs vs /\ calm st st1 /\ sane st1 /\ st_out st1 = st_out st ++ o1 /\
    forall o st', builtin_call name (P i (OVar fv) :: rs) s st1 o st' -> evals p s st o st'.
Proof.
  intros m g st s p name pf f args es vs o1 W R C SY FX E G I. destruct (words_sp name I) as [IW SP]. destruct (view_word _ _ _ _ _ _ W R IW) as (fb & B & M).
  rewrite B in SP. injection SP as SP. destruct (fixed_sees m g st s f W R FX) as (i & fv & fn & VG & FN & SE). destruct (G g st s args W R E) as (qs & LQ & K). destruct (code_form _ _ _ _ C) as (tok & FO).
  destruct (K (noted st s tok) (calm_noted st s tok) (sane_noted _ _ _ (world_sane _ _ _ W))) as (rs & st1 & EV & VS & C1 & S1 & O1).
  exists i, fv, fn, rs, st1. split; [exact VG|]. split; [exact FN|]. split; [exact VS|]. split; [eapply calm_trans; [apply calm_noted|exact C1]|]. split; [exact S1|]. split; [rewrite O1, noted_out; reflexivity|].
  intros o st' (f' & B' & K'). assert (f' = fb) by congruence. subst f'. eapply ordinary_dispatch; [exact FO|exact M|exact SP| | |exact K'].
  - constructor; [eapply lu_var; [exact SY|exact SE]|exact LQ].
  - apply ev_value; [right; destruct FN as [T _]; rewrite T; split; discriminate|exact EV].
Qed.
Definition apply_good (f : str) (vs : list value) (v : value) (o : str) : Prop := forall m g st s rs i fv fn, world F st g -> view F st s g m -> var_at st g f = Some (P i (OVar fv)) -> is_fn fv fn ->
  vals_are st rs vs -> exists w st', calls fn rs s st (Val (Some w)) st' /\ val_is st' w v /\ calm st st' /\ sane st' /\ st_out st' = st_out st ++ o.
Lemma apply_prim : forall n vs v, prim n vs v -> apply_good n vs v [].
Proof.
  intros n vs v PR m g st s rs i fv fn W R VG FN VS. pose proof W as (_ & _ & _ & _ & B & _). destruct (B n (proj1 (words_sp n (prim_plain _ _ _ PR)))) as (i' & v' & fn' & VG' & FN' & BF).
  assert (fn' = fn) by (assert (v' = fv) by congruence; subst v'; destruct FN as [_ E1]; destruct FN' as [_ E2]; congruence). subst fn'.
  destruct (prim_good n vs v PR st s rs (world_sane _ _ _ W) (view_asks _ _ _ _ _ R) VS) as (r & st2 & (f & B' & K) & VI & C2 & S2 & O2). assert (f = fn) by congruence. subst f.
  exists r, st2. rewrite app_nil_r. auto.
Qed.
Lemma apply_fun : forall f xs b vs m' v r o, F f = Some (xs, b) -> length xs = length vs -> NoDup xs -> Forall (tidy F) xs -> stm_good (parameters_of xs vs) b m' v r o -> v <> Nothing -> apply_good f vs v o.
Proof. intros f xs b vs m' v r o FF L ND TI GB VN m g st s rs i fv fn W R VG FN VS. eapply fun_calls; eassumption. Qed.
Definition each_good (f : str) (vs us : list value) (o : str) : Prop := forall m g st s es i fv fn, world F st g -> view F st s g m -> var_at st g f = Some (P i (OVar fv)) -> is_fn fv fn ->
  vals_are st es vs -> exists ps ws st', maps_to fn s es st ps ws st' /\ vals_are st' ps us /\ calm st st' /\ sane st' /\ st_out st' = st_out st ++ o.
Lemma calm_var : forall st st' g f p, world F st g -> calm st st' -> var_at st g f = Some p -> var_at st' g f = Some p.
Proof. intros st st' g f p (_ & _ & (gs & G & _) & _) (_ & _ & KV & _) V. rewrite KV; [exact V|exists gs; exact G|intros []]. Qed.
Lemma each_end : forall f, each_good f [] [] [].
Proof.
  intros f m g st s es i fv fn W R VG FN VS. inversion VS; subst. exists [], [], st. split; [constructor|]. split; [constructor|]. split; [apply calm_refl|]. split; [eapply world_sane; exact W|].
  rewrite app_nil_r. reflexivity.
Qed.
Lemma each_next : forall f v vs u us o1 o2, apply_good f [v] u o1 -> each_good f vs us o2 -> each_good f (v :: vs) (u :: us) (o1 ++ o2).
Proof.
  intros f v vs u us o1 o2 G1 G2 m g st s es i fv fn W R VG FN VS. inversion VS as [|j w v' es' vs' V1 V2]; subst.
  set (st0 := with_nid (Pos.succ (st_nid st)) st). assert (C0 : calm st st0) by apply calm_nid. assert (S0 : sane st0) by (apply sane_nid; eapply world_sane; exact W).
  assert (W0 : world F st0 g) by (eapply world_calm; [exact C0|apply S0|apply S0|exact W]). assert (R0 : view F st0 s g m) by (eapply view_calm; eassumption).
  destruct (G1 m g st0 s [P (st_nid st) (OVar w)] i fv fn W0 R0 (calm_var _ _ _ _ _ W C0 VG) FN) as (w1 & st1 & K1 & VI1 & C1 & S1 & O1).
  { constructor; [eapply val_keeps; [exact C0|exact V1]|constructor]. }
  set (st2 := with_nid (Pos.succ (st_nid st1)) st1). assert (C2 : calm st st2) by (eapply calm_trans; [exact C0|]; eapply calm_trans; [exact C1|apply calm_nid]).
  assert (S2 : sane st2) by (apply sane_nid; exact S1).
  assert (W2 : world F st2 g) by (eapply world_calm; [exact C2|apply S2|apply S2|exact W]). assert (R2 : view F st2 s g m) by (eapply view_calm; eassumption).
  destruct (G2 m g st2 s es' i fv fn W2 R2 (calm_var _ _ _ _ _ W C2 VG) FN (vals_keep _ _ _ _ _ _ C2 V2)) as (ps & ws & st3 & M & VS3 & C3 & S3 & O3).
  exists (P (st_nid st1) (OVar w1) :: ps), (w1 :: ws), st3. split; [eapply mp_cons; [apply cp_var|exact K1|split; reflexivity|exact M]|].
  split; [constructor; [eapply val_keeps; [exact C3|]; eapply val_keeps; [apply calm_nid|exact VI1]|exact VS3]|]. split; [eapply calm_trans; eassumption|]. split; [exact S3|].
  rewrite O3. change (st_out st2) with (st_out st1). rewrite O1, <- app_assoc. reflexivity.
Qed.
Definition gather_good (f : str) (vs : list value) (v0 v : value) (o : str) : Prop := forall m g st s es i fv fn w0, world F st g -> view F st s g m -> var_at st g f = Some (P i (OVar fv)) -> is_fn fv fn ->
  vals_are st es vs -> val_is st w0 v0 -> exists w st', folds_to fn s es w0 st w st' /\ val_is st' w v /\ calm st st' /\ sane st' /\ st_out st' = st_out st ++ o.
Lemma gather_end : forall f v0, gather_good f [] v0 v0 [].
Proof.
  intros f v0 m g st s es i fv fn w0 W R VG FN VS V0. inversion VS; subst. exists w0, st. split; [constructor|]. split; [exact V0|]. split; [apply calm_refl|]. split; [eapply world_sane; exact W|].
  rewrite app_nil_r. reflexivity.
Qed.
Lemma gather_next : forall f v vs v0 v1 v2 o1 o2, apply_good f [v; v0] v1 o1 -> gather_good f vs v1 v2 o2 -> gather_good f (v :: vs) v0 v2 (o1 ++ o2).
Proof.
  intros f v vs v0 v1 v2 o1 o2 G1 G2 m g st s es i fv fn w0 W R VG FN VS V0. inversion VS as [|j w v' es' vs' V1 V2]; subst.
  set (sta := with_nid (Pos.succ (st_nid st)) st). set (st0 := with_nid (Pos.succ (st_nid sta)) sta). assert (C0 : calm st st0) by (eapply calm_trans; apply calm_nid).
  assert (S0 : sane st0) by (apply sane_nid, sane_nid; eapply world_sane; exact W).
  assert (W0 : world F st0 g) by (eapply world_calm; [exact C0|apply S0|apply S0|exact W]). assert (R0 : view F st0 s g m) by (eapply view_calm; eassumption).
  destruct (G1 m g st0 s [P (st_nid st) (OVar w); P (st_nid sta) (OVar w0)] i fv fn W0 R0 (calm_var _ _ _ _ _ W C0 VG) FN) as (w1 & st1 & K1 & VI1 & C1 & S1 & O1).
  { constructor; [eapply val_keeps; [exact C0|exact V1]|constructor; [eapply val_keeps; [exact C0|exact V0]|constructor]]. }
  assert (C2 : calm st st1) by (eapply calm_trans; [exact C0|exact C1]).
  assert (W2 : world F st1 g) by (eapply world_calm; [exact C2|apply S1|apply S1|exact W]). assert (R2 : view F st1 s g m) by (eapply view_calm; eassumption).
  destruct (G2 m g st1 s es' i fv fn w1 W2 R2 (calm_var _ _ _ _ _ W C2 VG) FN (vals_keep _ _ _ _ _ _ C2 V2) VI1) as (w2 & st3 & M & VS3 & C3 & S3 & O3).
  exists w2, st3. split; [eapply fd_cons; [apply cp_var|split; reflexivity|exact K1|exact M]|].
  split; [exact VS3|]. split; [eapply calm_trans; [exact C2|exact C3]|]. split; [exact S3|].
  rewrite O3, O1. change (st_out st0) with (st_out st). rewrite <- app_assoc. reflexivity.
Qed.
Lemma map_new : forall i v f p es s st ps vs st1, is_fn v f -> list_arg st p es -> maps_to f s es st ps vs st1 -> heap_numbered st1 ->
  exists r st', builtin_call $"map" [P i (OVar v); p] s st (Val (Some r)) st' /\ new_list_of st1 st' r ps /\ only_adds st1 st' /\ heap_numbered st'.
Proof.
  intros i v f p es s st ps vs st1 FN A M H. destruct (maps_run _ _ _ _ _ _ _ M) as (n & R). specialize (R n (le_n _)). destruct (alloc_list ps st1 H) as (r & st' & E & N & O & H').
  exists r, st'. split; [|auto]. apply (builtin_calls n _ BMap); [vm_compute; reflexivity| |discriminate]. cbn [call_builtin].
  rewrite (map_head _ _ _ f _ es) by assumption. unfold bind. rewrite R. exact E.
Qed.
Lemma good_each : forall m f e vs us o1 o2, fixed F f -> yields F m e (ListV vs) o1 -> exp_good m e (ListV vs) o1 -> each_good f vs us o2 -> exp_good m (Each f e) (ListV us) (o1 ++ o2).
Proof.
  intros m f e vs us o1 o2 FX Y G GE g st s p W R E. inversion E as [| | | | | |p' pf f' pe e' CO SY EE|]; subst.
  pose proof (exps_cons m e [] _ _ _ _ Y G (exps_nil m)) as GS. rewrite app_nil_r in GS.
  assert (IP : In $"map" plain_words) by (vm_compute; tauto).
  destruct (named_call m g st s p $"map" pf f [pe] [e] _ _ W R CO SY FX (es_cons _ _ _ _ _ EE (es_nil _)) GS IP) as (i & fv & fn & rs & st1 & VG & FN & VS & C1 & S1 & O1 & Q).
  destruct (vals_one _ _ _ VS) as (j & w & -> & VI). destruct (val_list_arg _ j _ _ VI) as (es & LA & VE).
  assert (W1 : world F st1 g) by (eapply world_calm; [exact C1|apply S1|apply S1|exact W]). assert (R1 : view F st1 s g m) by (eapply view_calm; eassumption).
  destruct (GE m g st1 s es i fv fn W1 R1 (calm_var _ _ _ _ _ W C1 VG) FN VE) as (ps & ws & st2 & M & VS2 & C2 & S2 & O2).
  destruct (map_new i fv fn _ es s st1 ps ws st2 FN LA M (proj2 S2)) as (r & st3 & K & (l & _ & IL & U) & OA & HN). pose proof (calm_adds _ _ OA) as C3.
  exists r, st3. split; [apply Q; exact K|]. split; [eapply vi_list; [exact IL|rewrite U; discriminate|eapply vals_keep; [exact C3|exact VS2]]|].
  split; [eapply calm_trans; [exact C1|]; eapply calm_trans; [exact C2|exact C3]|].
  split; [split; [destruct K as (fb & _ & K); eapply calls_numbered; [apply S1|exact K]|exact HN]|].
  assert (EO : st_out st3 = st_out st2) by apply OA. rewrite EO, O2, O1, <- app_assoc. reflexivity.
Qed.
Lemma good_gather : forall m f e e0 vs v0 v o1 o2 o3, fixed F f -> yields F m e (ListV vs) o1 -> exp_good m e (ListV vs) o1 -> yields F m e0 v0 o2 -> exp_good m e0 v0 o2 -> gather_good f vs v0 v o3 ->
  exp_good m (Gather f e e0) v (o1 ++ o2 ++ o3).
Proof.
  intros m f e e0 vs v0 v o1 o2 o3 FX Y G Y0 G0 GE g st s p W R E. inversion E as [| | | | | | |p' pf f' pe p0 e' e0' CO SY EE EE0]; subst.
  pose proof (exps_cons m e0 [] _ _ _ _ Y0 G0 (exps_nil m)) as GS0. rewrite app_nil_r in GS0. pose proof (exps_cons m e [e0] _ _ _ _ Y G GS0) as GS.
  assert (IP : In $"reduce" plain_words) by (vm_compute; tauto).
  destruct (named_call m g st s p $"reduce" pf f [pe; p0] [e; e0] _ _ W R CO SY FX (es_cons _ _ _ _ _ EE (es_cons _ _ _ _ _ EE0 (es_nil _))) GS IP) as (i & fv & fn & rs & st1 & VG & FN & VS & C1 & S1 & O1 & Q).
  destruct (vals_two _ _ _ _ VS) as (j & w & j0 & w0 & -> & VI & VI0). destruct (val_list_arg _ j _ _ VI) as (es & LA & VE).
  assert (W1 : world F st1 g) by (eapply world_calm; [exact C1|apply S1|apply S1|exact W]). assert (R1 : view F st1 s g m) by (eapply view_calm; eassumption).
  destruct (GE m g st1 s es i fv fn w0 W1 R1 (calm_var _ _ _ _ _ W C1 VG) FN VE VI0) as (r & st2 & M & VR & C2 & S2 & O2).
  exists r, st2. split; [apply Q; eapply reduce_ok; eassumption|]. split; [exact VR|]. split; [eapply calm_trans; [exact C1|exact C2]|]. split; [exact S2|].
  rewrite O2, O1, <- !app_assoc. reflexivity.
Qed.
(** ** Programs *)
Scheme yields_m := Induction for yields Sort Prop with yield_all_m := Induction for yield_all Sort Prop with does_m := Induction for does Sort Prop
  with do_all_m := Induction for do_all Sort Prop with loops_m := Induction for loops Sort Prop
  with applies_m := Induction for applies Sort Prop with each_m := Induction for each Sort Prop with gathers_m := Induction for gathers Sort Prop.
Combined Scheme program_ind from yields_m, yield_all_m, does_m, do_all_m, loops_m, applies_m, each_m, gathers_m.
Lemma all_good : (forall m e v o, yields F m e v o -> exp_good m e v o) /\ (forall m es vs o, yield_all F m es vs o -> exps_good m es vs o) /\
  (forall m b m' v r o, does F m b m' v r o -> stm_good m b m' v r o) /\ (forall m ss v0 m' v r o, do_all F m ss v0 m' v r o -> stms_good m ss v0 m' v r o) /\
  (forall m c b v0 m' v r o, loops F m c b v0 m' v r o -> loop_good m c b v0 m' v r o) /\ (forall f vs v o, applies F f vs v o -> apply_good f vs v o) /\
  (forall f vs us o, each F f vs us o -> each_good f vs us o) /\ (forall f vs v0 v o, gathers F f vs v0 v o -> gather_good f vs v0 v o).
Proof.
  apply (program_ind F (fun m e v o _ => exp_good m e v o) (fun m es vs o _ => exps_good m es vs o) (fun m b m' v r o _ => stm_good m b m' v r o)
    (fun m ss v0 m' v r o _ => stms_good m ss v0 m' v r o) (fun m c b v0 m' v r o _ => loop_good m c b v0 m' v r o) (fun f vs v o _ => apply_good f vs v o)
    (fun f vs us o _ => each_good f vs us o) (fun f vs v0 v o _ => gather_good f vs v0 v o)).
  - intros. apply good_const.
  - intros. apply good_name. assumption.
  - intros. eapply good_prim; eassumption.
  - intros m a b o Y G. eapply (good_and m a b false); [exact G|reflexivity|reflexivity].
  - intros m a b y o1 o2 Y1 G1 Y2 G2. eapply (good_and m a b true); [exact G1| |]; exists y, o2; auto.
  - intros. eapply good_cond; eassumption.
  - intros. eapply good_call; eassumption.
  - intros. eapply good_each; eassumption.
  - intros. eapply good_gather; eassumption.
  - intros. apply exps_nil.
  - intros. apply exps_cons; assumption.
  - intros. eapply stm_exp; try (apply exp_fits); eassumption.
  - intros. apply stm_return; assumption.
  - intros. eapply stm_def; try (apply exp_fits); eassumption.
  - intros. eapply stm_set; try (apply exp_fits); eassumption.
  - intros. apply stm_block. assumption.
  - intros. eapply stm_if; try (apply exp_fits); eassumption.
  - intros. eapply stm_when; try (apply exp_fits); eassumption.
  - intros. eapply stm_when_not; try (apply exp_fits); eassumption.
  - intros. apply stm_while. assumption.
  - intros. eapply stm_print; eassumption.
  - intros. apply stms_end.
  - intros. eapply stms_next; eassumption.
  - intros. apply stms_leave. assumption.
  - intros. eapply loop_end; try (apply exp_fits); eassumption.
  - intros. eapply loop_next; try (apply exp_fits); eassumption.
  - intros. eapply loop_leave; try (apply exp_fits); eassumption.
  - intros. apply apply_prim. assumption.
  - intros. eapply apply_fun; eassumption.
  - intros. apply each_end.
  - intros. apply each_next; assumption.
  - intros. apply gather_end.
  - intros. eapply gather_next; eassumption.
Qed.
End Lang.

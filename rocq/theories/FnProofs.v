(** Functions made by functions keep the variables of the call that made them. *)
Require Import String Ascii List ZArith Bool Lia.
Require Import PArith FMapPositive.
From Verif Require Import Base CppString Num Token Value State Show ScopeOps Builtins Table Eval LispTop SpecRun SpecVal SpecNum SpecList SpecForm SpecCalc SpecIo SpecMix SpecLang SpecClos SpecFn
  BuiltinProofs RelProofs FrameProofs RunProofs NumProofs StrProofs ListProofs FormProofs ClosProofs CalcProofs IoProofs QuoteProofs MixProofs SmallProofs ClassifyProofs ErrProofs LangProofs.
Import ListNotations.

Lemma params_none : forall xs vs x, length xs = length vs -> parameters_of xs vs x = None -> ~ In x xs.
Proof.
  induction xs as [|y xs IH]; intros vs x L H I; [destruct I|]. destruct vs as [|v vs]; [discriminate|]. cbn [parameters_of] in H. unfold update in H.
  destruct (list_eq_dec ascii_dec x y) as [-> | NE]; [discriminate|]. destruct I as [-> | I]; [congruence|]. eapply IH; [|exact H|exact I]. cbn in L. lia.
Qed.
Lemma entered_call : forall F st g s m ds fn xs body vs rs m0, world F st g -> view F st s g m -> written_in st fn ds xs body -> surroundings F st ds g m0 ->
  length xs = length vs -> NoDup xs -> Forall (tidy F) xs -> vals_are st rs vs ->
  exists st1 c, calm st st1 /\ world F st1 g /\ view F st1 c g (over (parameters_of xs vs) m0) /\ st_out st1 = st_out st /\ (ds < c)%positive /\
    (exists csc, scope_at st1 c = Some csc /\ s_closure csc = Some ds) /\ scope_at st c = None /\ (forall n, ~ In n private -> ~ In n xs -> var_at st1 c n = None) /\
    forall w st2, evals body c st1 (Val (Some w)) st2 -> exists st', calls fn rs s st (Val (Some w)) st' /\ unlinked st2 st' s c.
Proof.
  intros F st g s m ds fn xs body vs rs m0 W R (fname & modname & fp & more & CD & PA) (AD & CP) L ND TI VS.
  pose proof W as (NU0 & HN0 & (gs & G & _) & MA & _ & _). destruct R as ((sc & H & EG & _) & FX0 & _).
  destruct (closure_enters st s sc ds fname modname fp body more rs xs H NU0 HN0) as (st1 & c & SC & NU1 & HN1 & EC & RUN).
  { rewrite EG. eapply exists_at; exact G. } { apply asks_exists; exact AD. } { exact PA. }
  pose proof (calm_starts _ _ _ _ _ _ _ _ SC) as C1. destruct SC as (FR & (sc' & csc & fill & H' & HS & HC & N1 & N2 & N3 & N4 & N5 & (N6 & NLV) & N7 & N8 & N9 & N10 & N11 & N12) & OT & REST).
  assert (sc' = sc) by congruence. subst sc'. assert (NSC : s <> c) by congruence.
  assert (W1 : world F st1 g) by (eapply world_calm; [exact C1|assumption|assumption|exact W]).
  assert (TX : forall x, In x xs -> tidy F x) by (apply Forall_forall; exact TI).
  assert (NP : forall x q, tidy F x -> In q private -> x <> q) by (intros x q (_ & _ & T & _) I ->; contradiction).
  assert (LT : (ds < c)%positive). { rewrite EC. destruct AD as (dsc & HD & _). eapply NU0; exact HD. }
  assert (VN : forall n, ~ In n private -> ~ In n xs -> var_at st1 c n = None). { intros n T NI. apply N12; [exact NI|intros ->; apply T; vm_compute; tauto|intros ->; apply T; vm_compute; tauto]. }
  assert (XG : scope_exists st g) by (exists gs; exact G). assert (XD : scope_exists st ds) by (apply asks_exists; exact AD).
  assert (KV : forall u n, scope_exists st u -> var_at st1 u n = var_at st u n). { intros u n X. apply C1; [exact X|intro Q; exact Q]. }
  exists st1, c. split; [exact C1|]. split; [exact W1|]. split.
  { split. { exists csc. split; [exact HC|]. split; [congruence|]. destruct AD as (dsc & HD & ND0). rewrite (NLV _ HD). exact ND0. } split; [|split].
    - intros n FN. right. destruct (MA n FN) as [_ NPR]. apply N12.
      + intro I. destruct (TX n I) as (_ & T2 & _ & T4). destruct FN; [contradiction|congruence].
      + intros ->. apply NPR. vm_compute. tauto.
      + intros ->. apply NPR. vm_compute. tauto.
    - intros x v0 PX. unfold over in PX. destruct (parameters_of xs vs x) as [v1|] eqn:PE.
      + injection PX as <-. destruct (params_nth st xs rs vs L ND VS x v1 PE) as (k & i1 & w & K1 & K2 & VI & K4). exists i1, w. split; [|eapply val_keeps; [exact C1|exact VI]].
        assert (T : tidy F x) by (apply TX; eapply nth_error_In; exact K1). apply fd_own. apply (N9 k x); [exact K1| |exact K4|apply NP; [exact T|vm_compute; tauto]|apply NP; [exact T|vm_compute; tauto]].
        rewrite nth_error_app1; [exact K2|]. apply nth_error_Some. congruence.
      + destruct (CP x v0 PX) as (T & i & w & CA & VI). exists i, w. split; [|eapply val_keeps; [exact C1|exact VI]]. pose proof (VN x (proj1 (proj2 (proj2 T))) (params_none _ _ _ L PE)) as V0.
        inversion CA as [q A|q A B|e q A B E]; subst.
        * apply fd_global; [exact V0|]. rewrite KV by exact XG. exact A.
        * eapply fd_around; [exact V0|rewrite KV by exact XG; exact A|]. eapply en_here; [exact HC|exact N3|exact LT|eapply exists_keeps; [exact C1|exact XD]|rewrite KV by exact XD; exact B].
        * eapply fd_around; [exact V0|rewrite KV by exact XG; exact A|]. eapply en_up; [exact HC|exact N3|exact LT|eapply exists_keeps; [exact C1|exact XD]|rewrite KV by exact XD; exact B|].
          eapply enclosing_calm; [exact C1|exact E].
    - left. apply N12; [|str_ne|str_ne]. intro I. apply TX in I. apply (NP _ $"###traceon###" I); [vm_compute; tauto|reflexivity]. }
  split; [destruct REST as (_ & _ & O & _); exact O|]. split; [exact LT|]. split; [exists csc; auto|]. split; [exact FR|]. split; [exact VN|].
  intros w st2 EV.
  destruct (frame_evals _ _ _ _ _ NU1 EV _ _ HS) as (sc2 & S2 & _ & _ & _ & _ & V & _). destruct (V NSC) as (vv & ->).
  destruct (frame_evals _ _ _ _ _ NU1 EV _ _ HC) as (csc2 & C2 & _). destruct (pop_unlinks st2 s c _ _ NSC S2 eq_refl C2) as (st' & P1 & P2).
  exists st'. split; [|exact P2]. destruct EV as (n & EV & _). exists (S n). split; [|discriminate]. cbn [run step r_call]. unfold call. rewrite CD, RUN. unfold bind at 1, try_catch. rewrite EV. unfold bind. rewrite P1. reflexivity.
Qed.

(** ** The value of a call *)
Lemma made_value : forall F st g s m ds fn xs body e vs rs m0 v o, world F st g -> view F st s g m -> written_in st fn ds xs body -> exp_at st body e -> surroundings F st ds g m0 ->
  length xs = length vs -> NoDup xs -> Forall (tidy F) xs -> vals_are st rs vs -> yields F (over (parameters_of xs vs) m0) e v o ->
  exists w st', calls fn rs s st (Val (Some w)) st' /\ val_is st' w v /\ keeps no_scope no_variable st st' /\ world F st' g /\ st_out st' = st_out st ++ o.
Proof.
  intros F st g s m ds fn xs body e vs rs m0 v o W R WR EA SU L ND TI VS Y.
  destruct (entered_call F st g s m ds fn xs body vs rs m0 W R WR SU L ND TI VS) as (st1 & c & C1 & W1 & R1 & O1 & _ & _ & _ & _ & CL).
  destruct (proj1 (all_good F) _ _ _ _ Y g st1 c body W1 R1 (exp_keeps _ _ _ _ _ _ C1 EA)) as (w & st2 & EV & VI & C2 & S2 & O2).
  destruct (CL w st2 EV) as (st' & CA & UN). pose proof (calm_unlinked _ _ _ _ UN) as C3. pose proof (sane_unlinked _ _ _ _ UN S2) as S3.
  assert (C : calm st st') by (eapply calm_trans; [exact C1|]; eapply calm_trans; [exact C2|exact C3]).
  exists w, st'. split; [exact CA|]. split; [eapply val_keeps; [exact C3|exact VI]|]. split; [exact C|].
  split; [eapply world_calm; [exact C|apply S3|apply S3|exact W]|]. destruct UN as (x1 & x2 & _ & _ & ->). cbn [st_out with_scopes]. rewrite O2, O1. reflexivity.
Qed.

(** ** Assignment to a variable of the scope around *)
Lemma made_sets : forall F st g s m ds fn xs body x e vs rs m0 v o q, world F st g -> view F st s g m -> written_in st fn ds xs body -> sets st body x e -> surroundings F st ds g m0 ->
  length xs = length vs -> NoDup xs -> Forall (tidy F) xs -> vals_are st rs vs -> yields F (over (parameters_of xs vs) m0) e v o ->
  tidy F x -> ~ In x xs -> var_at st ds x = Some q ->
  exists w st', calls fn rs s st (Val (Some w)) st' /\ val_is st' w v /\ (exists i, var_at st' ds x = Some (P i (OVar w))) /\
    keeps no_scope (the_variable ds x) st st' /\ world F st' g /\ st_out st' = st_out st ++ o.
Proof.
  intros F st g s m ds fn xs body x e vs rs m0 v o q W R WR (px & pe & CO & SX & EE) SU L ND TI VS Y T NI VD.
  destruct (entered_call F st g s m ds fn xs body vs rs m0 W R WR SU L ND TI VS) as (st1 & c & C1 & W1 & R1 & O1 & LT & (csc & HC & NC) & FR & VN & CL).
  destruct (code_form _ _ _ _ (code_keeps _ _ _ _ _ _ _ C1 CO)) as (tok & FO).
  assert (ST : standard st1 c $"setf") by (eapply view_standard; [exact W1|exact R1|vm_compute; tauto]).
  set (st2 := noted st1 c tok). assert (C2 : calm st1 st2) by apply calm_noted. assert (S2 : sane st2) by (apply sane_noted; eapply world_sane; exact W1).
  assert (W2 : world F st2 g) by (eapply world_calm; [exact C2|apply S2|apply S2|exact W1]).
  assert (C12 : calm st st2) by (eapply calm_trans; [exact C1|exact C2]).
  destruct (proj1 (all_good F) _ _ _ _ Y g st2 c pe W2 (view_calm _ _ _ _ _ _ C2 R1 W1) (exp_keeps _ _ _ _ _ _ C12 EE)) as (w & st3 & EV & VI & C3 & S3 & O3).
  assert (C13 : calm st1 st3) by (eapply calm_trans; [exact C2|exact C3]). assert (C03 : calm st st3) by (eapply calm_trans; [exact C1|exact C13]).
  assert (W3 : world F st3 g) by (eapply world_calm; [exact C3|apply S3|apply S3|exact W2]).
  assert (XD : scope_exists st ds) by (apply asks_exists, SU). assert (XC : scope_exists st1 c) by (exists csc; exact HC).
  assert (VD3 : var_at st3 ds x = Some q). { rewrite (proj1 (proj2 (proj2 C03)) ds x XD) by (intro Z0; exact Z0). exact VD. }
  assert (VC3 : var_at st3 c x = None). { rewrite (proj1 (proj2 (proj2 C13)) c x XC) by (intro Z0; exact Z0). apply VN; [apply T|exact NI]. }
  destruct (proj1 (proj2 C13) c csc HC) as (csc3 & HC3 & _ & NC3 & _).
  assert (AS : assigns st3 c x ds). { eapply as_enclosing; [exists csc3; exact HC3|exact VC3|]. eapply en_here; [exact HC3|rewrite NC3; exact NC|exact LT|eapply exists_keeps; [exact C03|exact XD]|exact VD3]. }
  destruct (set_assigns st3 c x ds w (proj1 T) AS) as (st4 & K1 & K2).
  assert (EV2 : evals body c st1 (Val (Some w)) st4).
  { eapply mono_setf_tail; [exact FO|exact ST|exact SX|eapply exp_plain; exact EE|exact EV| |discriminate]. unfold bind. rewrite K1. reflexivity. }
  assert (AH : ahead st3 st4). { pose proof (rel_set_in_scopes ahead ahead_refl ahead_trans putting_ahead c x (P (st_nid st3) (OVar w)) (with_nid (Pos.succ (st_nid st3)) st3)) as Q. rewrite K1 in Q. exact Q. }
  assert (NU4 : numbered st4) by (eapply evals_numbered; [apply (world_sane _ _ _ W1)|exact EV2]).
  pose proof K2 as ((i4 & BV) & BO & BS & BX & BK & B1 & B2 & B3 & B4 & B5 & B6).
  assert (HN4 : heap_numbered st4) by (eapply heap_ahead; [apply (proj2 S3)|exact AH|assumption|assumption]).
  assert (K4 : keeps no_scope (the_variable ds x) st3 st4). { eapply keeps_weaken; [| |apply keeps_changes, (changes_becomes _ _ _ _ _ K2)]; [auto|]. intros u n (-> & ->). split; reflexivity. }
  assert (NF : ~ fixed F x) by (destruct T as (_ & T2 & _ & T4); intros [Z0|Z0]; [contradiction|congruence]).
  assert (NM : x <> $"###macros###") by (intros ->; apply (proj1 (proj2 (proj2 T))); vm_compute; tauto).
  assert (W4 : world F st4 g). { eapply world_keeps; [| |exact K4|exact NU4|exact HN4|exact W3]; [intros n FN u [_ ->]; contradiction|intros u [_ E]; congruence]. }
  destruct (CL w st4 EV2) as (st' & CA & UN). pose proof (calm_unlinked _ _ _ _ UN) as C5. pose proof (sane_unlinked _ _ _ _ UN (world_sane _ _ _ W4)) as S5.
  exists w, st'. split; [exact CA|]. split; [eapply val_keeps; [exact C5|]; eapply val_keeps; [exact K4|exact VI]|].
  split. { exists i4. rewrite (proj1 (proj2 (proj2 C5)) ds x) by ((apply BX; eapply exists_keeps; [exact C03|exact XD]) || (intro Z0; exact Z0)). exact BV. }
  split. { eapply keeps_trans; [apply calm_any; exact C03|]. eapply keeps_trans; [exact K4|apply calm_any; exact C5]. }
  split; [eapply world_calm; [exact C5|apply S5|apply S5|exact W4]|]. destruct UN as (x1 & x2 & _ & _ & ->). cbn [st_out with_scopes]. rewrite B3, O3. unfold st2. rewrite noted_out, O1. reflexivity.
Qed.

(** ** Making a function *)
Lemma fn_makes : forall nm st s sc p tok fp body xs, In nm [$"fn"; $"lambda"] -> form st p nm tok [fp; body] -> standard st s nm -> scope_at st s = Some sc -> plain fp -> plain body -> parameters st fp xs ->
  exists v fn, evals p s st (Val (Some v)) (noted st s tok) /\ is_fn v fn /\ fn_sp fn = false /\ written_in (noted st s tok) fn s xs body.
Proof.
  intros nm st s sc p tok fp body xs I FO SD H P1 P2 PA. set (w0 := noted st s tok).
  assert (H0 : exists sc0, scope_at w0 s = Some sc0) by (unfold w0; rewrite noted_scope; destruct tok; [rewrite Pos.eqb_refl, H; cbn; eauto|eauto]). destruct H0 as (sc0 & H0).
  assert (PA0 : parameters w0 fp xs) by (eapply params_keeps; [apply calm_noted|exact PA]).
  assert (BF : exists v fn, b_fn [fp; body] s w0 = (Val (Some v), w0) /\ is_fn v fn /\ fn_sp fn = false /\ exists fname modname, fn_code fn = CClosure fname modname [fp; body] s).
  { unfold b_fn, bind, reads. rewrite (get_at _ _ _ H0). destruct (s_userdoc sc0) as [[sig doc]|]; eexists; eexists; (split; [reflexivity|]); (split; [split; reflexivity|]); (split; [reflexivity|]); eexists; eexists; reflexivity. }
  destruct BF as (v & fn & BF & IF & SP & fname & modname & CD). exists v, fn. split; [|split; [exact IF|split; [exact SP|exists fname, modname, fp, []; auto]]].
  assert (PL : Forall plain [fp; body]) by auto.
  destruct I as [<-|[<-|[]]]; apply (special_builtin _ _ _ _ _ _ BFn FO SD); [vm_compute; reflexivity|vm_compute; reflexivity|exact PL| |vm_compute; reflexivity|vm_compute; reflexivity|exact PL|];
    (exists 0%nat; split; [exact BF|discriminate]).
Qed.
Lemma no_macro_calm : forall st st' g n, calm st st' -> no_macro st g n -> no_macro st' g n.
Proof.
  intros st st' g n C (X & M). assert (KV : forall u k, scope_exists st u -> var_at st' u k = var_at st u k) by (intros u k H; apply C; [exact H|intro Q; exact Q]).
  split; [eapply exists_keeps; [exact C|exact X]|]. rewrite KV by exact X. destruct M as [M|(i & ms & M & XM & N)]; [left; exact M|right]. exists i, ms. split; [exact M|]. split; [eapply exists_keeps; [exact C|exact XM]|]. rewrite KV by exact XM. exact N.
Qed.
Lemma maker_makes : forall F st g s m nm ds fn xs body vs rs m0 fp2 body2 ys e, world F st g -> view F st s g m -> written_in st fn ds xs body -> surroundings F st ds g m0 ->
  length xs = length vs -> NoDup xs -> Forall (tidy F) xs -> vals_are st rs vs -> (forall x, In x xs -> var_at st g x = None) ->
  makes_functions st g nm -> ~ In nm xs -> code_of st body nm [fp2; body2] -> parameters st fp2 ys -> plain fp2 -> exp_at st body2 e ->
  exists v fn2 c st', calls fn rs s st (Val (Some v)) st' /\ is_fn v fn2 /\ fn_sp fn2 = false /\ scope_at st c = None /\ written_in st' fn2 c ys body2 /\ exp_at st' body2 e /\
    surroundings F st' c g (over (parameters_of xs vs) m0) /\ keeps no_scope no_variable st st' /\ world F st' g /\ st_out st' = st_out st.
Proof.
  intros F st g s m nm ds fn xs body vs rs m0 fp2 body2 ys e W R WR SU L ND TI VS NG (I & NMA & fi & fv & ff & VG & IFF & BF) NX CO PA PF EE.
  destruct (entered_call F st g s m ds fn xs body vs rs m0 W R WR SU L ND TI VS) as (st1 & c & C1 & W1 & R1 & O1 & LT & (csc & HC & NC) & FR & VN & CL).
  destruct (code_form _ _ _ _ (code_keeps _ _ _ _ _ _ _ C1 CO)) as (tok & FO).
  pose proof (world_global _ _ _ W) as XG. assert (KV : forall u n, scope_exists st u -> var_at st1 u n = var_at st u n). { intros u n X. apply C1; [exact X|intro Q; exact Q]. }
  assert (NPR : ~ In nm private) by (destruct I as [<-|[<-|[]]]; vm_compute; intuition discriminate).
  destruct R1 as ((csc' & HC' & EG & NLC) & FX1 & V1 & TR1). assert (csc' = csc) by congruence. subst csc'.
  assert (SD : standard st1 c nm).
  { exists ff. split; [exact BF|]. pose proof W1 as (_ & _ & (gs1 & G1 & T1) & _). exists csc, gs1, fi, fv. rewrite EG. split; [exact HC|]. split; [exact G1|]. split; [exact T1|]. split; [eapply no_macro_calm; [exact C1|exact NMA]|]. split; [|exact IFF].
    eapply se_global; [exact HC|apply VN; assumption|rewrite EG; exists gs1; exact G1|rewrite EG, KV by exact XG; exact VG]. }
  destruct (fn_makes nm st1 c csc body tok fp2 body2 ys I FO SD HC PF (exp_plain _ _ _ EE) (params_keeps _ _ _ _ _ _ C1 PA)) as (v & fn2 & EV & IF & SP & WR2).
  set (st2 := noted st1 c tok) in *. assert (C2 : calm st1 st2) by apply calm_noted. destruct (CL v st2 EV) as (st' & CA & UN). pose proof (calm_unlinked _ _ _ _ UN) as C3.
  assert (S2 : sane st2) by (apply sane_noted; eapply world_sane; exact W1). pose proof (sane_unlinked _ _ _ _ UN S2) as S3.
  assert (C13 : calm st1 st') by (eapply calm_trans; [exact C2|exact C3]). assert (C03 : calm st st') by (eapply calm_trans; [exact C1|exact C13]).
  exists v, fn2, c, st'. split; [exact CA|]. split; [exact IF|]. split; [exact SP|]. split; [exact FR|]. split.
  { destruct WR2 as (fname & modname & fp & more & CD & PA2). exists fname, modname, fp, more. split; [exact CD|eapply params_keeps; [exact C3|exact PA2]]. }
  split; [eapply exp_keeps; [exact C03|exact EE]|].
  split; [|split; [exact C03|split; [eapply world_calm; [exact C03|apply S3|apply S3|exact W]|destruct UN as (x1 & x2 & _ & _ & ->); cbn [st_out with_scopes]; unfold st2; rewrite noted_out; exact O1]]].
  assert (XC : scope_exists st1 c) by (exists csc; exact HC). assert (XG1 : scope_exists st1 g) by (eapply world_global; exact W1).
  assert (KV' : forall u n, scope_exists st1 u -> var_at st' u n = var_at st1 u n). { intros u n X. apply C13; [exact X|intro Q; exact Q]. }
  split; [eapply asks_keeps; [exact C13|exists csc; auto]|]. intros x u MX.
  assert (TX : tidy F x). { unfold over in MX. destruct (parameters_of xs vs x) as [v1|] eqn:PE; [|apply (proj2 SU x u MX)].
    destruct (params_nth st xs rs vs L ND VS x v1 PE) as (k & i1 & w & K1 & _). eapply Forall_forall; [exact TI|eapply nth_error_In; exact K1]. }
  split; [exact TX|]. destruct (V1 x u MX) as (i & w & FI & VI). exists i, w. split; [|eapply val_keeps; [exact C13|exact VI]].
  inversion FI as [q A|q A B|e0 q A B E]; subst.
  - apply ct_here; [|rewrite KV' by exact XC; exact A]. rewrite KV' by exact XG1. rewrite KV by exact XG. apply NG.
    destruct (in_dec (list_eq_dec ascii_dec) x xs) as [Y|N]; [exact Y|]. rewrite VN in A; [discriminate|apply TX|exact N].
  - apply ct_global. rewrite KV' by exact XG1. exact B.
  - eapply ct_around; [rewrite KV' by exact XG1; exact B|rewrite KV' by exact XC; exact A|eapply enclosing_calm; [exact C13|exact E]].
Qed.
(** A function made by a function sees the arguments of the call that made it. *)
Lemma made_function : forall F st g s m nm ds fn xs body vs rs m0 fp2 body2 ys e us ps v o, world F st g -> view F st s g m -> written_in st fn ds xs body -> surroundings F st ds g m0 ->
  length xs = length vs -> NoDup xs -> Forall (tidy F) xs -> vals_are st rs vs -> (forall x, In x xs -> var_at st g x = None) ->
  makes_functions st g nm -> ~ In nm xs -> code_of st body nm [fp2; body2] -> parameters st fp2 ys -> plain fp2 -> exp_at st body2 e ->
  length ys = length us -> NoDup ys -> Forall (tidy F) ys -> vals_are st ps us -> yields F (over (parameters_of ys us) (over (parameters_of xs vs) m0)) e v o ->
  exists h fn2 st1 w st', calls fn rs s st (Val (Some h)) st1 /\ is_fn h fn2 /\ calls fn2 ps s st1 (Val (Some w)) st' /\ val_is st' w v /\ keeps no_scope no_variable st st' /\ st_out st' = st_out st ++ o.
Proof.
  intros F st g s m nm ds fn xs body vs rs m0 fp2 body2 ys e us ps v o W R WR SU L ND TI VS NG MF NX CO PA PF EE L2 ND2 TI2 VS2 Y.
  destruct (maker_makes F st g s m nm ds fn xs body vs rs m0 fp2 body2 ys e W R WR SU L ND TI VS NG MF NX CO PA PF EE) as (h & fn2 & c & st1 & CA & IF & SP & FR & WR2 & EE2 & SU2 & C & W1 & O1).
  destruct (made_value F st1 g s m c fn2 ys body2 e us ps _ v o W1 (view_calm _ _ _ _ _ _ C R W) WR2 EE2 SU2 L2 ND2 TI2 (vals_keep _ _ _ _ _ _ C VS2) Y) as (w & st' & CA2 & VI & C2 & W2 & O2).
  exists h, fn2, st1, w, st'. split; [exact CA|]. split; [exact IF|]. split; [exact CA2|]. split; [exact VI|]. split; [eapply calm_trans; [exact C|exact C2]|]. rewrite O2, O1. reflexivity.
Qed.

(** ** Counters *)
Lemma counter_call : forall F st g s m fn ds n k z q, world F st g -> view F st s g m -> counter F st fn ds n k -> (exists i w, captures st ds g n (P i (OVar w)) /\ val_is st w (NumV z)) -> var_at st ds n = Some q -> fits (z + k) ->
  exists w st', calls fn [] s st (Val (Some w)) st' /\ is_int w (z + k) /\ (exists i, var_at st' ds n = Some (P i (OVar w))) /\
    keeps no_scope (the_variable ds n) st st' /\ world F st' g /\ st_out st' = st_out st.
Proof.
  intros F st g s m fn ds n k z q W R ((body & WR & SE) & T & AD) (i & w0 & CA & VI) VD FI.
  set (m0 := update empty_store n (NumV z)).
  assert (SU : surroundings F st ds g m0). { split; [exact AD|]. intros x v MX. unfold m0, update, empty_store in MX. destruct (list_eq_dec ascii_dec x n) as [-> | NE]; [|discriminate]. injection MX as <-. split; [exact T|]. exists i, w0. auto. }
  assert (MN : over (parameters_of [] []) m0 n = Some (NumV z)). { unfold over, m0, update. cbn [parameters_of]. unfold empty_store. destruct (list_eq_dec ascii_dec n n); [reflexivity|congruence]. }
  assert (Y : yields F (over (parameters_of [] []) m0) (Prim $"+" [Name n; Const (NumV k)]) (NumV (z + k)) []).
  { apply (yi_prim F _ $"+" _ [NumV z; NumV k] (NumV (z + k)) []); [|apply (pr_op Add); apply cm_add; exact FI].
    apply (ya_cons F _ _ _ _ _ [] []); [apply yi_name; exact MN|]. apply (ya_cons F _ _ _ _ _ [] []); [apply yi_const|apply ya_nil]. }
  destruct (made_sets F st g s m ds fn [] body n _ [] [] m0 (NumV (z + k)) [] q W R WR SE SU eq_refl (NoDup_nil _) (Forall_nil _) (va_nil _) Y T (fun H => H) VD) as (w & st' & CA' & VI' & VD' & K & W' & O).
  exists w, st'. rewrite app_nil_r in O. split; [exact CA'|]. split; [apply (val_num _ _ _ VI')|]. auto.
Qed.
Lemma counter_keeps : forall F A W st st' fn ds n k, keeps A W st st' -> counter F st fn ds n k -> counter F st' fn ds n k.
Proof.
  intros F A W st st' fn ds n k K ((body & (fname & modname & fp & more & CD & PA) & (px & pe & CO & SX & EE)) & T & AD). split; [|split; [exact T|eapply asks_keeps; eassumption]].
  exists body. split; [exists fname, modname, fp, more; split; [exact CD|eapply params_keeps; eassumption]|exists px, pe; split; [eapply code_keeps; eassumption|split; [exact SX|eapply exp_keeps; eassumption]]].
Qed.
Lemma counter_counts : forall F st g s m fn ds n k z, world F st g -> view F st s g m -> stands_at F st g (fn, ds, n, k) z -> fits (z + k) ->
  exists w st', calls fn [] s st (Val (Some w)) st' /\ is_int w (z + k) /\ stands_at F st' g (fn, ds, n, k) (z + k) /\ keeps no_scope (the_variable ds n) st st' /\ world F st' g /\ st_out st' = st_out st.
Proof.
  intros F st g s m fn ds n k z W R (CN & VG & i & w0 & VD & VI) FI. assert (ND : g <> ds) by congruence.
  destruct (counter_call F st g s m fn ds n k z (P i (OVar w0)) W R CN) as (w & st' & CA & IW & (j & VD') & K & W' & O); [exists i, w0; split; [apply ct_here; assumption|exact VI]|exact VD|exact FI|].
  exists w, st'. split; [exact CA|]. split; [exact IW|]. split; [|auto]. split; [eapply counter_keeps; [exact K|exact CN]|].
  split; [|exists j, w; split; [exact VD'|apply vi_num; assumption]]. rewrite (proj1 (proj2 (proj2 K)) g n); [exact VG|eapply world_global; exact W|]. intros [E _]. congruence.
Qed.
Lemma stands_keeps : forall F st st' g ds n c z, keeps no_scope (the_variable ds n) st st' -> scope_exists st g -> home c <> (ds, n) -> g <> ds -> stands_at F st g c z -> stands_at F st' g c z.
Proof.
  intros F st st' g ds n (((fn & ds') & n') & k) z K XG N NG (CN & VG & i & w & VD & VI). split; [eapply counter_keeps; [exact K|exact CN]|].
  pose proof K as (_ & _ & KN & _). split; [rewrite KN; [exact VG|exact XG|intros [E _]; congruence]|]. exists i, w. split; [|eapply val_keeps; [exact K|exact VI]].
  rewrite KN; [exact VD|apply asks_exists, CN|]. intros [-> ->]. apply N. reflexivity.
Qed.
Lemma view_keeps : forall F st st' s g ds n, tidy F n -> keeps no_scope (the_variable ds n) st st' -> view F st s g empty_store -> view F st' s g empty_store.
Proof.
  intros F st st' s g ds n T K ((sc & H & G & NL) & X & _ & C). pose proof K as (_ & S & N & _). assert (XS : scope_exists st s) by (exists sc; exact H).
  assert (E : forall k, k <> n -> var_at st' s k = var_at st s k) by (intros k Q; apply N; [exact XS|intros [_ Z0]; congruence]).
  assert (NP : forall q, In q private -> q <> n) by (intros q I ->; apply T; exact I).
  split. { destruct (S s sc H) as (sc' & H' & G' & _ & _ & _ & NL' & _). exists sc'. split; [exact H'|]. split; congruence. }
  split. { intros k FN. rewrite E; [auto|]. intros ->. destruct T as (_ & T2 & _ & T4). destruct FN; [contradiction|congruence]. }
  split; [intros x v MX; discriminate|]. destruct C as [C|(b & (ti & to & C1) & (tj & C2))]; [left; rewrite E by (apply NP; vm_compute; tauto); exact C|right; exists b].
  split; [exists ti, to|exists tj]; rewrite E by (apply NP; vm_compute; tauto); assumption.
Qed.
Lemma nodup_home : forall cs i j c d, NoDup (map home cs) -> nth_error cs i = Some c -> nth_error cs j = Some d -> i <> j -> home c <> home d.
Proof.
  intros cs i j c d ND I J N E. apply N. eapply NoDup_nth_error; [exact ND|rewrite map_length; apply nth_error_Some; congruence|]. rewrite !nth_error_map, I, J. cbn. congruence.
Qed.
Lemma counters_count : forall F g s cs is zs bs zs', answers cs zs is bs zs' -> forall st, world F st g -> view F st s g empty_store -> NoDup (map home cs) ->
  (forall i c, nth_error cs i = Some c -> stands_at F st g c (zs i)) ->
  exists ws st', called cs s is st ws st' /\ Forall2 is_int ws bs /\ (forall i c, nth_error cs i = Some c -> stands_at F st' g c (zs' i)) /\ st_out st' = st_out st.
Proof.
  intros F g s cs is zs bs zs' H. induction H as [zs|zs i fn ds n k is bs zs' NI FI AN IH]; intros st W R ND ST; [exists [], st; split; [constructor|]; split; [constructor|]; auto|].
  pose proof (ST i _ NI) as SI. destruct (counter_counts F st g s _ fn ds n k (zs i) W R SI FI) as (w & st1 & CA & IW & S1 & K & W1 & O1).
  assert (T : tidy F n) by apply SI. assert (NG : g <> ds). { destruct SI as (_ & VG & j & w0 & VD & _). congruence. }
  destruct (IH st1 W1 (view_keeps _ _ _ _ _ _ _ T K R) ND) as (ws & st' & CL & FA & ST' & O').
  { intros j c NJ. cbn beta. destruct (Nat.eqb_spec j i) as [-> | NE]; [assert (c = (fn, ds, n, k)) by congruence; subst c; exact S1|].
    eapply stands_keeps; [exact K|eapply world_global; exact W| |exact NG|apply ST; exact NJ]. apply (nodup_home cs j i c (fn, ds, n, k) ND NJ NI NE). }
  exists (w :: ws), st'. split; [econstructor; eassumption|]. split; [constructor; assumption|]. split; [exact ST'|]. congruence.
Qed.
(** A global variable with the same name stops the counter. *)
Lemma counter_hidden : forall F st g s m fn ds n k z q, world F st g -> view F st s g m -> counter F st fn ds n k -> g <> ds -> var_is st g n (NumV z) -> var_at st ds n = Some q -> fits (z + k) ->
  exists w st', calls fn [] s st (Val (Some w)) st' /\ is_int w (z + k) /\ var_is st' g n (NumV z) /\ (exists i, var_at st' ds n = Some (P i (OVar w))) /\
    keeps no_scope (the_variable ds n) st st' /\ world F st' g /\ st_out st' = st_out st.
Proof.
  intros F st g s m fn ds n k z q W R CN NG (i & w0 & VG & VI) VD FI.
  destruct (counter_call F st g s m fn ds n k z q W R CN) as (w & st' & CA & IW & VD' & K & W' & O); [exists i, w0; split; [apply ct_global; exact VG|exact VI]|exact VD|exact FI|].
  exists w, st'. split; [exact CA|]. split; [exact IW|]. split; [|auto]. exists i, w0. split; [|eapply val_keeps; [exact K|exact VI]]. rewrite (proj1 (proj2 (proj2 K)) g n); [exact VG|eapply world_global; exact W|]. intros [E _]. congruence.
Qed.

(** ** Examples *)
Definition no_funs : funs := fun _ => None.
Definition fn_in (p : option ptr) : option fnval :=
  match p with Some (P _ (OVar v)) => match v_ty v, v_val v with TFun, Some (OFun f) => Some f | _, _ => None end | _ => None end.
Definition sym_b (x : str) (p : ptr) : bool :=
  match p with P _ (OVar v) => match v_ty v, v_val v with TSym, Some (OString t) => if list_eq_dec ascii_dec t x then true else false | _, _ => false end | _ => false end.
Definition num_b (z : Z) (p : ptr) : bool :=
  match p with P _ (OVar v) => match v_ty v, v_val v with TInt, Some (OInt y) => Z.eqb y z | _, _ => false end | _ => false end.
Definition args_of (st : state) (n : str) (p : ptr) : option (list ptr) :=
  match p with P _ (OList l) => match vec_at st l with Some (h :: args) => if sym_b n h then Some args else None | _ => None end | _ => None end.
Definition names_b (st : state) (xs : list str) (p : ptr) : bool :=
  match p with P _ (OList l) => match vec_at st l with Some fs => Nat.eqb (length fs) (length xs) && forallb (fun q => sym_b (fst q) (snd q)) (combine xs fs) | _ => false end | _ => false end.
Definition sum_b (st : state) (x y : str) (p : ptr) : bool := match args_of st $"+" p with Some [a; b] => sym_b x a && sym_b y b | _ => false end.
Definition inc_b (st : state) (n : str) (k : Z) (p : ptr) : bool :=
  match args_of st $"setf" p with Some [px; pe] => sym_b n px && match args_of st $"+" pe with Some [a; b] => sym_b n a && num_b k b | _ => false end | _ => false end.
Definition shape (fn : fnval) : option (ptr * ptr * sid) := match fn_code fn with CClosure _ _ (fp :: body :: _) ds => Some (fp, body, ds) | _ => None end.
Definition asks_b (st : state) (s : sid) : bool := match scope_at st s with Some sc => negb (s_needlv sc) | None => false end.
Definition var_b (st : state) (s : sid) (x : str) (z : Z) : bool := match var_at st s x with Some p => num_b z p | None => false end.
Definition none_b (st : state) (s : sid) (x : str) : bool := match var_at st s x with None => true | _ => false end.
Definition counter_b (st : state) (g : sid) (f n : str) (k : Z) : bool :=
  match fn_in (var_at st g f) with Some fn => match shape fn with Some (fp, body, ds) => names_b st [] fp && inc_b st n k body && asks_b st ds && negb (Pos.eqb g ds) | None => false end | None => false end.
Definition home_b (st : state) (g : sid) (f : str) (q : sid -> bool) : bool :=
  match fn_in (var_at st g f) with Some fn => match shape fn with Some (_, _, ds) => q ds | None => false end | None => false end.
Definition main_b (st : state) : bool :=
  match scope_at st main_sid with Some sc => negb (s_tracing sc) && negb (s_needlv sc) && Pos.eqb (s_global sc) main_sid | None => false end &&
  match var_at st main_sid $"###macros###" with Some (P _ (OScope ms)) => match scope_at st ms with Some msc => match s_vars msc with [] => true | _ => false end | None => false end | _ => false end &&
  match var_at st main_sid $"###traceon###", var_at st main_sid $"###tracebuffer###" with Some (P _ _), Some (P _ (OString _)) => true | _, _ => false end.

Lemma fn_in_at : forall p f, fn_in p = Some f -> exists i v, p = Some (P i (OVar v)) /\ is_fn v f.
Proof. intros p f H. destruct p as [[|i [| | | | | | | | | | |v]]|]; try discriminate. exists i, v. split; [reflexivity|]. unfold fn_in in H. destruct v as [[] [[]|] ? ?]; cbn in H; try discriminate. injection H as ->. split; reflexivity. Qed.
Lemma sym_at : forall x p, sym_b x p = true -> expr_sym p x.
Proof.
  intros x p H. destruct p as [|i [| | | | | | | | | | |v]]; try discriminate. exists i, v. split; [reflexivity|]. unfold sym_b in H. destruct v as [[] [[]|] ? ?]; cbn [v_ty v_val] in H; try discriminate.
  destruct (list_eq_dec ascii_dec _ x); [subst; split; reflexivity|discriminate].
Qed.
Lemma num_at : forall z p, num_b z p = true -> exists i w, p = P i (OVar w) /\ is_int w z.
Proof.
  intros z p H. destruct p as [|i [| | | | | | | | | | |v]]; try discriminate. exists i, v. split; [reflexivity|]. unfold num_b in H. destruct v as [[] [[]|] ? ?]; cbn [v_ty v_val] in H; try discriminate.
  apply Z.eqb_eq in H. subst. split; reflexivity.
Qed.
Lemma args_code : forall st n p args, args_of st n p = Some args -> code_of st p n args.
Proof.
  intros st n p args H. destruct p as [|i [| | | | |l| | | | | |]]; try discriminate. unfold args_of in H. destruct (vec_at st l) as [[|h a]|] eqn:V; try discriminate. destruct (sym_b n h) eqn:B; try discriminate. injection H as ->.
  destruct (sym_at _ _ B) as (j & v & -> & S). exists i, l, j, v. repeat split; try exact V; apply S.
Qed.
Lemma names_at : forall st xs p, names_b st xs p = true -> parameters st p xs /\ plain p.
Proof.
  intros st xs p H. destruct p as [|i [| | | | |l| | | | | |]]; try discriminate. unfold names_b in H. destruct (vec_at st l) as [fs|] eqn:V; try discriminate. apply andb_true_iff in H. destruct H as (L & B). apply Nat.eqb_eq in L.
  split; [|exact Logic.I]. exists fs. split; [left; exists i, l; split; [reflexivity|exact V]|]. clear V. revert xs L B. induction fs as [|q fs IH]; intros [|x xs] L B; try discriminate; [constructor|].
  cbn [combine forallb fst snd] in B. apply andb_true_iff in B. destruct B as (B1 & B2). constructor; [apply sym_at, B1|]. apply IH; [cbn in L; congruence|exact B2].
Qed.
Lemma sum_at : forall st x y p, sum_b st x y p = true -> exp_at st p (Prim $"+" [Name x; Name y]).
Proof.
  intros st x y p H. unfold sum_b in H. destruct (args_of st $"+" p) as [[|a [|b []]]|] eqn:A; try discriminate. apply andb_true_iff in H. destruct H as (B1 & B2).
  eapply ea_prim; [apply args_code; exact A|]. constructor; [constructor; apply sym_at, B1|]. constructor; [constructor; apply sym_at, B2|constructor].
Qed.
Lemma inc_at : forall st n k p, fits k -> inc_b st n k p = true -> sets st p n (Prim $"+" [Name n; Const (NumV k)]).
Proof.
  intros st n k p FK H. unfold inc_b in H. destruct (args_of st $"setf" p) as [[|px [|pe []]]|] eqn:A; try discriminate. apply andb_true_iff in H. destruct H as (B1 & B2).
  destruct (args_of st $"+" pe) as [[|a [|b []]]|] eqn:A2; try discriminate. apply andb_true_iff in B2. destruct B2 as (B2 & B3). exists px, pe. split; [apply args_code; exact A|]. split; [apply sym_at, B1|].
  eapply ea_prim; [apply args_code; exact A2|]. constructor; [constructor; apply sym_at, B2|]. constructor; [|constructor]. destruct (num_at _ _ B3) as (i & w & -> & W). constructor; [exact Logic.I|]. constructor; [exact W|exact FK].
Qed.
Lemma var_ok : forall st s x z, fits z -> var_b st s x z = true -> var_is st s x (NumV z).
Proof.
  intros st s x z FZ H. unfold var_b in H. destruct (var_at st s x) as [p|] eqn:V; [|discriminate]. destruct (num_at _ _ H) as (i & w & -> & W). exists i, w. split; [exact V|]. constructor; [exact W|exact FZ].
Qed.
Lemma shape_written : forall st fn fp body ds xs, shape fn = Some (fp, body, ds) -> names_b st xs fp = true -> written_in st fn ds xs body.
Proof.
  intros st fn fp body ds xs H N. unfold shape in H. destruct (fn_code fn) as [|a b [|p1 [|p2 more]] d] eqn:C; try discriminate. injection H as -> -> ->. exists a, b, fp, more. split; [exact C|]. apply names_at, N.
Qed.
Lemma counter_at : forall st g f n k, tidy no_funs n -> fits k -> counter_b st g f n k = true ->
  exists fn ds, fn_in (var_at st g f) = Some fn /\ g <> ds /\ counter no_funs st fn ds n k /\ forall q, home_b st g f q = q ds.
Proof.
  intros st g f n k TN FK H. unfold counter_b in H. destruct (fn_in (var_at st g f)) as [fn|] eqn:V; [|discriminate]. destruct (shape fn) as [[[fp body] ds]|] eqn:S; [|discriminate].
  repeat (apply andb_true_iff in H; destruct H as (H & ?)). exists fn, ds. split; [reflexivity|]. split; [intros ->; rewrite Pos.eqb_refl in *; discriminate|]. split.
  - split; [exists body; split; [eapply shape_written; eassumption|apply inc_at; assumption]|]. split; [exact TN|]. unfold asks_b in *. destruct (scope_at st ds) as [sc|] eqn:E; [|discriminate]. exists sc. split; [exact E|]. destruct (s_needlv sc); [discriminate|reflexivity].
  - intro q. unfold home_b. rewrite V, S. reflexivity.
Qed.
Lemma main_scope_ok : forall st, main_b st = true -> (exists sc, scope_at st main_sid = Some sc /\ s_tracing sc = false /\ s_needlv sc = false /\ s_global sc = main_sid) /\ (exists b, collects st main_sid b) /\ forall n, no_macro st main_sid n.
Proof.
  intros st H. unfold main_b in H. apply andb_true_iff in H. destruct H as (H & B3). apply andb_true_iff in H. destruct H as (B1 & B2).
  assert (X : exists sc, scope_at st main_sid = Some sc /\ s_tracing sc = false /\ s_needlv sc = false /\ s_global sc = main_sid).
  { clear B2 B3. destruct (scope_at st main_sid) as [sc|]; [|discriminate]. apply andb_true_iff in B1. destruct B1 as (B1 & G). apply andb_true_iff in B1. destruct B1 as (T & NL). apply Pos.eqb_eq in G. apply negb_true_iff in T. apply negb_true_iff in NL.
    exists sc. repeat split; assumption. }
  clear B1. split; [exact X|]. split.
  - clear B2 X. unfold collects. destruct (var_at st main_sid $"###traceon###") as [[|i o]|]; try discriminate. destruct (var_at st main_sid $"###tracebuffer###") as [[|j [| | | |t| | | | | | |]]|]; try discriminate.
    exists t. split; [exists i, o; reflexivity|exists j; reflexivity].
  - clear B3. intro n. destruct X as (sc & S & _). split; [exists sc; exact S|]. clear S. right. destruct (var_at st main_sid $"###macros###") as [[|i [| | | | | | | | |ms| |]]|]; try discriminate. destruct (scope_at st ms) as [msc|] eqn:SM; [|discriminate]. destruct (s_vars msc) as [|? ?] eqn:E2; [|discriminate].
    exists i, ms. split; [reflexivity|]. split; [exists msc; exact SM|]. unfold var_at. rewrite SM, E2. reflexivity.
Qed.
Lemma main_world : forall st, reachable st -> main_b st = true -> map (fun n => fn_in (var_at st main_sid n)) words = map builtin_fn words -> world no_funs st main_sid /\ view no_funs st main_sid main_sid empty_store /\ (forall n, no_macro st main_sid n).
Proof.
  intros st R H E. destruct (main_scope_ok _ H) as ((sc & S & T & NL & G) & CO & NM).
  split; [|split; [|exact NM]].
  - split; [apply reachable_numbered, R|]. split; [apply reachable_heap, R|]. split; [exists sc; split; [exact S|exact T]|]. split; [|split; [|intros f xs b Q; discriminate Q]].
    + intros n [I|FF]; [|exfalso; apply FF; reflexivity]. split; [apply NM|]. intro P. revert n I P.
      assert (Q : forallb (fun n => if in_dec (list_eq_dec ascii_dec) n private then false else true) words = true) by (vm_compute; reflexivity).
      intros n I P. rewrite forallb_forall in Q. specialize (Q n I). destruct (in_dec (list_eq_dec ascii_dec) n private); [discriminate|contradiction].
    + intros n I. assert (B : builtin_fn n <> None).
      { assert (Q : forallb (fun n => match builtin_fn n with Some _ => true | None => false end) words = true) by (vm_compute; reflexivity). rewrite forallb_forall in Q. specialize (Q n I). intro Z. rewrite Z in Q. discriminate. }
      assert (E2 : fn_in (var_at st main_sid n) = builtin_fn n). { clear -E I. induction words as [|w ws IH]; [destruct I|]. cbn [map] in E. injection E as E1 E2. destruct I as [-> |I]; [exact E1|exact (IH E2 I)]. }
      destruct (builtin_fn n) as [fn|]; [|congruence]. destruct (fn_in_at _ _ E2) as (i & v & V & F). exists i, v, fn. split; [exact V|]. split; [exact F|reflexivity].
  - split; [exists sc; split; [exact S|split; [exact G|exact NL]]|]. split; [intros; left; reflexivity|]. split; [intros x v Q; discriminate Q|]. right. exact CO.
Qed.
Definition made_code : str :=
  $"(do (defn adder (n) (lambda (x) (+ x n))) (def a (adder 5)) (defn mk (n) (lambda () (setf n (+ n 1)))) (def c (mk 0)) (def d (mk 10)))".
Definition made_state : state := snd (eval_script 60 false false made_code $"main" (init_state [] [] (Env (fun _ => true) None []))).
Definition hidden_state : state := snd (eval_script 60 false false $"(do (def n 100) (println n))" $"main" made_state).
(** What the examples need to know of the state. *)
Definition made_b (st : state) : bool :=
  main_b st && counter_b st main_sid $"c" $"n" 1 && counter_b st main_sid $"d" $"n" 1 && none_b st main_sid $"x" &&
  match fn_in (var_at st main_sid $"adder") with
  | Some fn => match shape fn with
    | Some (fp, body, ds) => Pos.eqb ds main_sid && names_b st [$"n"] fp && match args_of st $"lambda" body with Some [q; b] => names_b st [$"x"] q && sum_b st $"x" $"n" b | _ => false end
    | None => false end
  | None => false end &&
  match fn_in (var_at st main_sid $"a") with
  | Some fn => match shape fn with Some (fp, body, ds) => names_b st [$"x"] fp && sum_b st $"x" $"n" body && asks_b st ds && var_b st ds $"n" 5 | None => false end
  | None => false end &&
  home_b st main_sid $"c" (fun u => home_b st main_sid $"d" (fun w => negb (Pos.eqb u w))).
Definition free_b (st : state) : bool :=
  none_b st main_sid $"n" && home_b st main_sid $"c" (fun u => var_b st u $"n" 0) && home_b st main_sid $"d" (fun u => var_b st u $"n" 10).
Definition taken_b (st : state) : bool := var_b st main_sid $"n" 100 && home_b st main_sid $"c" (fun u => var_b st u $"n" 0).
Lemma made_facts : (map (fun n => fn_in (var_at made_state main_sid n)) ($"lambda" :: words), made_b made_state && free_b made_state) = (map builtin_fn ($"lambda" :: words), true).
Proof. vm_compute. reflexivity. Qed.
Lemma hidden_facts : (map (fun n => fn_in (var_at hidden_state main_sid n)) ($"lambda" :: words), made_b hidden_state && taken_b hidden_state) = (map builtin_fn ($"lambda" :: words), true).
Proof. vm_compute. reflexivity. Qed.
Lemma map_split : forall (A B : Type) (f g : A -> B) x l, map f (x :: l) = map g (x :: l) -> f x = g x /\ map f l = map g l.
Proof. intros A B f g x l E. cbn [map] in E. injection E as E1 E2. split; assumption. Qed.
Lemma pair_split : forall (A B : Type) (a c : A) (b d : B), (a, b) = (c, d) -> a = c /\ b = d.
Proof. intros A B a c b d E. injection E as E1 E2. split; assumption. Qed.
Lemma asks_ok : forall st s, asks_b st s = true -> asks_value st s.
Proof. intros st s H. unfold asks_b in H. destruct (scope_at st s) as [sc|] eqn:E; [|discriminate]. exists sc. split; [exact E|]. apply negb_true_iff, H. Qed.
Definition two_counters (st : state) : Prop := exists fc dc fd dd, fn_in (var_at st main_sid $"c") = Some fc /\ fn_in (var_at st main_sid $"d") = Some fd /\
  counter no_funs st fc dc $"n" 1 /\ counter no_funs st fd dd $"n" 1 /\ main_sid <> dc /\ dc <> dd /\ (forall q, home_b st main_sid $"c" q = q dc) /\ (forall q, home_b st main_sid $"d" q = q dd).
Definition adder_made (st : state) : Prop := exists fn body q b, fn_in (var_at st main_sid $"adder") = Some fn /\ written_in st fn main_sid [$"n"] body /\
  code_of st body $"lambda" [q; b] /\ parameters st q [$"x"] /\ plain q /\ exp_at st b (Prim $"+" [Name $"x"; Name $"n"]).
Definition a_made (st : state) : Prop := exists fn body ds, fn_in (var_at st main_sid $"a") = Some fn /\ written_in st fn ds [$"x"] body /\
  exp_at st body (Prim $"+" [Name $"x"; Name $"n"]) /\ asks_value st ds /\ var_is st ds $"n" (NumV 5).
Lemma tidy_n : tidy no_funs $"n".
Proof. repeat split; vm_compute; intuition discriminate. Qed.
Lemma tidy_x : tidy no_funs $"x".
Proof. repeat split; vm_compute; intuition discriminate. Qed.
Lemma adder_ok : forall st, match fn_in (var_at st main_sid $"adder") with
  | Some fn => match shape fn with
    | Some (fp, body, ds) => Pos.eqb ds main_sid && names_b st [$"n"] fp && match args_of st $"lambda" body with Some [q; b] => names_b st [$"x"] q && sum_b st $"x" $"n" b | _ => false end
    | None => false end
  | None => false end = true -> adder_made st.
Proof.
  intros st H. destruct (fn_in (var_at st main_sid $"adder")) as [fn|] eqn:V; [|discriminate]. destruct (shape fn) as [[[fp body] ds]|] eqn:S; [|discriminate].
  apply andb_true_iff in H. destruct H as (H & H2). apply andb_true_iff in H. destruct H as (H0 & H1). apply Pos.eqb_eq in H0. subst ds.
  destruct (args_of st $"lambda" body) as [[|q [|b []]]|] eqn:A; try discriminate. apply andb_true_iff in H2. destruct H2 as (H2 & H3). exists fn, body, q, b. split; [exact V|]. split; [eapply shape_written; eassumption|].
  split; [apply args_code; exact A|]. split; [apply (names_at _ _ _ H2)|]. split; [apply (names_at _ _ _ H2)|apply sum_at, H3].
Qed.
Lemma a_ok : forall st, match fn_in (var_at st main_sid $"a") with
  | Some fn => match shape fn with Some (fp, body, ds) => names_b st [$"x"] fp && sum_b st $"x" $"n" body && asks_b st ds && var_b st ds $"n" 5 | None => false end
  | None => false end = true -> a_made st.
Proof.
  intros st H. destruct (fn_in (var_at st main_sid $"a")) as [fn|] eqn:V; [|discriminate]. destruct (shape fn) as [[[fp body] ds]|] eqn:S; [|discriminate].
  apply andb_true_iff in H. destruct H as (H & H3). apply andb_true_iff in H. destruct H as (H & H2). apply andb_true_iff in H. destruct H as (H0 & H1). exists fn, body, ds. split; [exact V|]. split; [eapply shape_written; eassumption|].
  split; [apply sum_at, H1|]. split; [apply asks_ok, H2|]. apply var_ok; [unfold fits; lia|exact H3].
Qed.
Lemma made_known : forall st, reachable st -> map (fun n => fn_in (var_at st main_sid n)) ($"lambda" :: words) = map builtin_fn ($"lambda" :: words) -> made_b st = true ->
  world no_funs st main_sid /\ view no_funs st main_sid main_sid empty_store /\ makes_functions st main_sid $"lambda" /\ var_at st main_sid $"x" = None /\ two_counters st /\ adder_made st /\ a_made st.
Proof.
  intros st R E H. apply map_split in E. destruct E as (E1 & E2). unfold made_b in H.
  apply andb_true_iff in H. destruct H as (H & H6). apply andb_true_iff in H. destruct H as (H & H5). apply andb_true_iff in H. destruct H as (H & H4). apply andb_true_iff in H. destruct H as (H & H3).
  apply andb_true_iff in H. destruct H as (H & H2). apply andb_true_iff in H. destruct H as (H0 & H1).
  destruct (main_world st R H0 E2) as (W & V & NM). split; [exact W|]. split; [exact V|]. split; [|split; [|split; [|split; [apply adder_ok; exact H4|apply a_ok; exact H5]]]].
  - split; [right; left; reflexivity|]. split; [apply NM|]. assert (B : exists f, builtin_fn $"lambda" = Some f) by (eexists; vm_compute; reflexivity). destruct B as (f & B). rewrite B in E1. destruct (fn_in_at _ _ E1) as (i & v & X & Y). exists i, v, f. split; [exact X|]. split; [exact Y|exact B].
  - unfold none_b in H3. destruct (var_at st main_sid $"x"); [discriminate|reflexivity].
  - destruct (counter_at st main_sid $"c" $"n" 1 tidy_n ltac:(unfold fits; lia) H1) as (fc & dc & X1 & X2 & X3 & X4). destruct (counter_at st main_sid $"d" $"n" 1 tidy_n ltac:(unfold fits; lia) H2) as (fd & dd & Y1 & Y2 & Y3 & Y4).
    exists fc, dc, fd, dd. rewrite X4, Y4 in H6. repeat (split; [assumption|]). split; [intros ->; rewrite Pos.eqb_refl in H6; discriminate|]. split; assumption.
Qed.
Lemma made_reachable : reachable made_state. Proof. apply reach_eval, reach_init. Qed.
Lemma hidden_reachable : reachable hidden_state. Proof. apply reach_eval, made_reachable. Qed.
Lemma made_all : exists st, reachable st /\ world no_funs st main_sid /\ view no_funs st main_sid main_sid empty_store /\ makes_functions st main_sid $"lambda" /\ var_at st main_sid $"x" = None /\ var_at st main_sid $"n" = None /\ adder_made st /\ a_made st /\
  exists fc dc fd dd, counter no_funs st fc dc $"n" 1 /\ counter no_funs st fd dd $"n" 1 /\ dc <> dd /\ var_is st dc $"n" (NumV 0) /\ var_is st dd $"n" (NumV 10).
Proof.
  assert (G : forall st, reachable st -> (map (fun n => fn_in (var_at st main_sid n)) ($"lambda" :: words), made_b st && free_b st) = (map builtin_fn ($"lambda" :: words), true) ->
    world no_funs st main_sid /\ view no_funs st main_sid main_sid empty_store /\ makes_functions st main_sid $"lambda" /\ var_at st main_sid $"x" = None /\ var_at st main_sid $"n" = None /\ adder_made st /\ a_made st /\
    exists fc dc fd dd, counter no_funs st fc dc $"n" 1 /\ counter no_funs st fd dd $"n" 1 /\ dc <> dd /\ var_is st dc $"n" (NumV 0) /\ var_is st dd $"n" (NumV 10)).
  { intros st R E. apply pair_split in E. destruct E as (E1 & E3). apply andb_true_iff in E3. destruct E3 as (B1 & B2).
    destruct (made_known st R) as (W & V & M & X & (fc & dc & fd & dd & _ & _ & C1 & C2 & _ & N & Q1 & Q2) & A1 & A2); [exact E1|exact B1|].
    unfold free_b in B2. rewrite Q1, Q2 in B2. apply andb_true_iff in B2. destruct B2 as (B2 & B4). apply andb_true_iff in B2. destruct B2 as (B2 & B3).
    repeat (split; [assumption|]). split; [unfold none_b in B2; destruct (var_at st main_sid $"n"); [discriminate|reflexivity]|]. split; [exact A1|]. split; [exact A2|]. exists fc, dc, fd, dd. repeat (split; [assumption|]).
    split; (apply var_ok; [unfold fits; lia|assumption]). }
  exists made_state. split; [exact made_reachable|]. exact (G made_state made_reachable made_facts).
Qed.
Lemma hidden_all : exists st fc dc, reachable st /\ world no_funs st main_sid /\ view no_funs st main_sid main_sid empty_store /\ counter no_funs st fc dc $"n" 1 /\ main_sid <> dc /\ var_is st main_sid $"n" (NumV 100) /\ var_is st dc $"n" (NumV 0).
Proof.
  assert (G : forall st, reachable st -> (map (fun n => fn_in (var_at st main_sid n)) ($"lambda" :: words), made_b st && taken_b st) = (map builtin_fn ($"lambda" :: words), true) ->
    exists fc dc, reachable st /\ world no_funs st main_sid /\ view no_funs st main_sid main_sid empty_store /\ counter no_funs st fc dc $"n" 1 /\ main_sid <> dc /\ var_is st main_sid $"n" (NumV 100) /\ var_is st dc $"n" (NumV 0)).
  { intros st R E. apply pair_split in E. destruct E as (E1 & E3). apply andb_true_iff in E3. destruct E3 as (B1 & B2).
    destruct (made_known st R) as (W & V & M & X & (fc & dc & fd & dd & _ & _ & C1 & C2 & N1 & N & Q1 & Q2) & A1 & A2); [exact E1|exact B1|].
    unfold taken_b in B2. rewrite Q1 in B2. apply andb_true_iff in B2. destruct B2 as (B2 & B3). exists fc, dc. repeat (split; [assumption|]). split; (apply var_ok; [unfold fits; lia|assumption]). }
  exists hidden_state. exact (G hidden_state hidden_reachable hidden_facts).
Qed.
Lemma global_hides : exists code st' w, code = $"(do (defn adder (n) (lambda (x) (+ x n))) (def a (adder 1)) (def n 9) (a 5))" /\
  runs false false code $"main" (init_state [] [] (Env (fun _ => true) None [])) (Val (Some w)) st' /\ is_int w 14.
Proof.
  eexists. eexists. eexists. split; [reflexivity|]. split; [apply (runs_by 60); [vm_compute; reflexivity|discriminate]|split; reflexivity].
Qed.
Lemma answers_step : forall cs zs i fn ds n k is b bs zs', nth_error cs i = Some (fn, ds, n, k) -> b = (zs i + k)%Z -> fits b ->
  answers cs (fun j => if Nat.eqb j i then zs i + k else zs j)%Z is bs zs' -> answers cs zs (i :: is) (b :: bs) zs'.
Proof. intros cs zs i fn ds n k is b bs zs' N -> FB A. eapply an_call; eassumption. Qed.

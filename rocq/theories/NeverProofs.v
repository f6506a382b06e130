(** Loops whose condition stays true never end. *)
Require Import String Ascii List ZArith Bool Lia.
Require Import PArith FMapPositive.
From Verif Require Import Base CppString Num Token Value State Show ScopeOps Builtins Table Eval LispTop SpecLex SpecParse SpecRun SpecVal SpecNum SpecList SpecForm SpecCalc SpecMacro SpecRead SpecIo SpecMix SpecLang SpecClos SpecNever
  FuelProofs BuiltinProofs RelProofs FrameProofs RunProofs NumProofs StrProofs ListProofs FormProofs ErrProofs ClosProofs CalcProofs IoProofs QuoteProofs MixProofs SmallProofs ClassifyProofs ReadProofs LexProofs ParseProofs LangProofs DefnProofs ProgProofs SampleProofs.
Import ListNotations.

Lemma eval_either : forall p s st o st1 n, evals p s st o st1 -> fst (r_eval (run n) p s st) <> NoFuel -> r_eval (run n) p s st = (o, st1).
Proof.
  intros p s st o st1 n E N. destruct (r_eval (run n) p s st) as [o2 st2] eqn:Q. cbn [fst] in N. destruct (evals_det p s st o st1 o2 st2 E) as (-> & ->); [exists n; split; assumption|reflexivity].
Qed.
(** One round of a loop whose condition is true. *)
Lemma while_go : forall c b s n w0 st v st1, evals c s st (Val (Some v)) st1 -> truth v true -> fst (r_while (run n) c b s w0 st) <> NoFuel ->
  exists m, n = S m /\ fst (r_eval (run m) b s st1) <> NoFuel /\
    forall r st2, r_eval (run m) b s st1 = (Val r, st2) -> leaving st2 s false -> r_while (run n) c b s w0 st = r_while (run m) c b s r st2.
Proof.
  intros c b s n w0 st v st1 E T N. destruct n as [|m]; [exfalso; apply N; reflexivity|]. exists m. split; [reflexivity|]. cbn [run step r_while] in *. unfold while_loop in *. unfold bind in *.
  assert (N1 : fst (r_eval (run m) c s st) <> NoFuel). { intro Q. apply N. destruct (r_eval (run m) c s st) as [[]]; try discriminate Q. reflexivity. }
  rewrite (eval_either _ _ _ _ _ _ E N1) in *. unfold some_var, ret, reads in *. rewrite (proj2 (to_bool_truth _ _ _) T) in *. split.
  - intro Q. apply N. destruct (r_eval (run m) b s st1) as [[]]; try discriminate Q. reflexivity.
  - intros r st2 Q (sc & H & IR). rewrite Q, (get_at _ _ _ H), IR. reflexivity.
Qed.
Lemma do_go : forall i l ps s n w0 st, fst (do_loop (run n) (P i (OList l) :: ps) s w0 st) <> NoFuel -> fst (r_eval (run n) (P i (OList l)) s st) <> NoFuel /\
  forall r st1, r_eval (run n) (P i (OList l)) s st = (Val r, st1) -> leaving st1 s false -> do_loop (run n) (P i (OList l) :: ps) s w0 st = do_loop (run n) ps s r st1.
Proof.
  intros i l ps s n w0 st N. cbn [do_loop] in *. unfold bind, lift in *. cbn [deref obj_is_list] in *. split.
  - intro Q. apply N. destruct (r_eval (run n) (P i (OList l)) s st) as [[]]; try discriminate Q. reflexivity.
  - intros r st1 Q (sc & H & IR). unfold reads. rewrite Q, (get_at _ _ _ H), IR. reflexivity.
Qed.

Section Never.
Variable F : funs.
Definition stm_stuck (m : store) (b : stm) : Prop := forall g st s p, world F st g -> frame F st s g m -> leaving st s false -> stm_at st p b -> forall n, fst (r_eval (run n) p s st) = NoFuel.
Definition stms_stuck (m : store) (ss : list stm) : Prop := forall g st s ps w0, world F st g -> frame F st s g m -> leaving st s false -> stms_at st ps ss ->
  forall n, fst (do_loop (run n) ps s w0 st) = NoFuel.
Definition loop_stuck (m : store) (c : exp) (b : stm) : Prop := forall g st s pc pb w0, world F st g -> frame F st s g m -> leaving st s false -> exp_at st pc c -> stm_at st pb b ->
  forall n, fst (r_while (run n) pc pb s w0 st) = NoFuel.
Lemma by_absurd : forall (o : out result), (o <> NoFuel -> False) -> o = NoFuel.
Proof. intros o H. destruct o; try (exfalso; apply H; discriminate). reflexivity. Qed.
(** The first round: the state after the condition, and after the body. *)
Lemma cond_ends : forall m c o g st s pc, yields F m c (BoolV true) o -> world F st g -> frame F st s g m -> leaving st s false -> exp_at st pc c ->
  exists w st1, evals pc s st (Val (Some w)) st1 /\ truth w true /\ after F g s st st1 m false o.
Proof.
  intros m c o g st s pc Y W R L EC. destruct (exp_fits F _ _ _ _ (proj1 (all_good F) _ _ _ _ Y) g st s pc W R EC) as (w & st1 & EV & VI & C & SA & O).
  exists w, st1. split; [exact EV|]. split; [apply tr_bool; eapply val_bool; exact VI|]. apply after_calm; assumption.
Qed.
Lemma body_ends : forall m b m' v r o g st s p, does F m b m' v r o -> world F st g -> frame F st s g m -> leaving st s false -> stm_at st p b ->
  exists w st1, evals p s st (Val w) st1 /\ after F g s st st1 m' r o.
Proof.
  intros m b m' v r o g st s p D W R L E. pose proof (all_good F) as (_ & _ & GS & _). destruct (GS _ _ _ _ _ _ D g st s p W R L E) as (w & st1 & EV & _ & A). exists w, st1. split; assumption.
Qed.
Lemma loop_round : forall m c b o1 m1 v o2, yields F m c (BoolV true) o1 -> does F m b m1 v false o2 ->
  forall g st s pc pb w0, world F st g -> frame F st s g m -> leaving st s false -> exp_at st pc c -> stm_at st pb b -> forall n, fst (r_while (run n) pc pb s w0 st) <> NoFuel ->
  exists k w st2, (k < n)%nat /\ r_while (run n) pc pb s w0 st = r_while (run k) pc pb s w st2 /\ world F st2 g /\ frame F st2 s g m1 /\ leaving st2 s false /\ exp_at st2 pc c /\ stm_at st2 pb b.
Proof.
  intros m c b o1 m1 v o2 Y D g st s pc pb w0 W R L EC EB n N. destruct (cond_ends m c o1 g st s pc Y W R L EC) as (w & st1 & EV & T & A1). pose proof A1 as (K1 & W1 & R1 & L1 & _).
  destruct (while_go _ pb s n w0 st w st1 EV T N) as (k & -> & NB & GO). pose proof (stm_keeps _ _ _ _ _ _ K1 EB) as EB1.
  destruct (body_ends m b m1 v false o2 g st1 s pb D W1 R1 L1 EB1) as (w2 & st2 & EV2 & A2). pose proof A2 as (K2 & W2 & R2 & L2 & _).
  exists k, w2, st2. split; [lia|]. split; [apply GO; [apply eval_either; assumption|exact L2]|]. repeat (split; [assumption|]).
  split; [exact (exp_keeps _ _ _ _ _ _ K2 (exp_keeps _ _ _ _ _ _ K1 EC))|exact (stm_keeps _ _ _ _ _ _ K2 EB1)].
Qed.
Lemma loop_forever : forall (I : store -> Prop) c b, (forall m1, I m1 -> exists m2 v o1 o2, yields F m1 c (BoolV true) o1 /\ does F m1 b m2 v false o2 /\ I m2) -> forall m, I m -> loop_stuck m c b.
Proof.
  intros I c b ST m IM g st s pc pb w0 W R L EC EB n. revert m IM st w0 W R L EC EB. induction n as [n IH] using lt_wf_ind. intros m IM st w0 W R L EC EB. apply by_absurd. intro N.
  destruct (ST m IM) as (m2 & v & o1 & o2 & Y & D & IM2). destruct (loop_round m c b o1 m2 v o2 Y D g st s pc pb w0 W R L EC EB n N) as (k & w & st2 & LT & E & W2 & R2 & L2 & EC2 & EB2).
  apply N. rewrite E. eapply IH; eassumption.
Qed.
Lemma loop_inside : forall m c b o, yields F m c (BoolV true) o -> stm_stuck m b -> loop_stuck m c b.
Proof.
  intros m c b o Y G g st s pc pb w0 W R L EC EB n. apply by_absurd. intro N. destruct (cond_ends m c o g st s pc Y W R L EC) as (w & st1 & EV & T & (K1 & W1 & R1 & L1 & _)).
  destruct (while_go _ pb s n w0 st w st1 EV T N) as (k & -> & NB & _). apply NB. eapply G; try eassumption. exact (stm_keeps _ _ _ _ _ _ K1 EB).
Qed.
Lemma loop_later : forall m c b o1 m1 v o2, yields F m c (BoolV true) o1 -> does F m b m1 v false o2 -> loop_stuck m1 c b -> loop_stuck m c b.
Proof.
  intros m c b o1 m1 v o2 Y D G g st s pc pb w0 W R L EC EB n. apply by_absurd. intro N.
  destruct (loop_round m c b o1 m1 v o2 Y D g st s pc pb w0 W R L EC EB n N) as (k & w & st2 & LT & E & W2 & R2 & L2 & EC2 & EB2). apply N. rewrite E. eapply G; eassumption.
Qed.
Lemma stuck_evals : forall p s st, (forall o st', ~ evals p s st o st') -> forall n, fst (r_eval (run n) p s st) = NoFuel.
Proof. intros p s st H n. apply by_absurd. intro N. destruct (r_eval (run n) p s st) as [o st'] eqn:Q. apply (H o st'). exists n. split; assumption. Qed.
Lemma evals_stuck : forall p s st, (forall n, fst (r_eval (run n) p s st) = NoFuel) -> forall o st', ~ evals p s st o st'.
Proof. intros p s st H o st' (n & E & N). specialize (H n). rewrite E in H. contradiction. Qed.
Lemma while_stuck : forall m c b, loop_stuck m c b -> stm_stuck m (While c b).
Proof.
  intros m c b G g st s p W R L E. apply stuck_evals. intros o st' EV. inversion E as [| | | | | | |p' pc pb c' b' CO EC EB|]; subst. destruct (code_form _ _ _ _ CO) as (tok & FO).
  assert (ST : standard st s $"while") by (eapply word_standard; try eassumption; vm_compute; tauto).
  assert (PL : Forall plain [pc; pb]) by (constructor; [eapply exp_plain; eassumption|]; constructor; [eapply stm_plain; eassumption|constructor]).
  pose proof (after_noted F g s st m false tok W R L) as (K0 & W0 & R0 & L0 & O0).
  rewrite (special_builtin _ _ _ _ _ _ BWhile FO ST) in EV by (try reflexivity; assumption). destruct EV as (n & EV & N). cbn [call_builtin] in EV.
  change (b_while (run n) [pc; pb] s) with (r_while (run n) pc pb s (Some vundef)) in EV. apply N.
  pose proof (G g _ s pc pb (Some vundef) W0 R0 L0 (exp_keeps _ _ _ _ _ _ K0 EC) (stm_keeps _ _ _ _ _ _ K0 EB) n) as Q. rewrite EV in Q. exact Q.
Qed.
Lemma block_stuck : forall m ss, stms_stuck m ss -> stm_stuck m (Block ss).
Proof.
  intros m ss G g st s p W R L E. apply stuck_evals. intros o st' EV. inversion E as [| | | |p' ps ss' CO ES| | | |]; subst. destruct (code_form _ _ _ _ CO) as (tok & FO).
  assert (ST : standard st s $"do") by (eapply word_standard; try eassumption; vm_compute; tauto).
  pose proof (after_noted F g s st m false tok W R L) as (K0 & W0 & R0 & L0 & O0).
  rewrite (special_builtin _ _ _ _ _ _ BDo FO ST) in EV by (try reflexivity; eapply stms_plain; exact ES). destruct EV as (n & EV & N). cbn [call_builtin] in EV. unfold b_do in EV. apply N.
  pose proof (G g _ s ps (Some vundef) W0 R0 L0 (stms_keeps _ _ _ _ _ _ K0 ES) n) as Q. rewrite EV in Q. exact Q.
Qed.
Lemma here_stuck : forall m b ss, stm_stuck m b -> stms_stuck m (b :: ss).
Proof.
  intros m b ss G g st s ps w0 W R L E n. inversion E as [|i l ps' b' ss' E1 E2]; subst. apply by_absurd. intro N. destruct (do_go _ _ _ _ _ _ _ N) as (N1 & _). apply N1. eapply G; eassumption.
Qed.
Lemma later_stuck : forall m b ss m1 v o, does F m b m1 v false o -> stms_stuck m1 ss -> stms_stuck m (b :: ss).
Proof.
  intros m b ss m1 v o D G g st s ps w0 W R L E n. inversion E as [|i l ps' b' ss' E1 E2]; subst. apply by_absurd. intro N. destruct (do_go _ _ _ _ _ _ _ N) as (N1 & GO).
  destruct (body_ends m b m1 v false o g st s _ D W R L E1) as (w & st1 & EV & (K1 & W1 & R1 & L1 & _)). apply N. rewrite (GO w st1); [|apply eval_either; assumption|exact L1].
  eapply G; try eassumption. exact (stms_keeps _ _ _ _ _ _ K1 E2).
Qed.
Lemma if_stuck : forall m c (x : bool) a b o, yields F m c (BoolV x) o -> stm_stuck m (if x then a else b) -> stm_stuck m (If c a b).
Proof.
  intros m c x a b o Y G g st s p W R L E. apply stuck_evals. intros o' st' EV. inversion E as [| | | | |p' pc pa pb c' a' b' CO EC EA EB| | |]; subst. destruct (code_form _ _ _ _ CO) as (tok & FO).
  assert (ST : standard st s $"if") by (eapply word_standard; try eassumption; vm_compute; tauto).
  assert (PL : Forall plain [pc; pa; pb]) by (constructor; [eapply exp_plain; eassumption|]; repeat (constructor; [eapply stm_plain; eassumption|]); constructor).
  pose proof (after_noted F g s st m false tok W R L) as (K0 & W0 & R0 & L0 & O0).
  destruct (exp_fits F _ _ _ _ (proj1 (all_good F) _ _ _ _ Y) g _ s pc W0 R0 (exp_keeps _ _ _ _ _ _ K0 EC)) as (w1 & st1 & EV1 & VI1 & C1 & S1 & O1).
  pose proof (after_calm F g s _ st1 m false o W0 R0 L0 C1 S1 O1) as (K1 & W1 & R1 & L1 & _).
  apply (if_chooses st s p tok pc pa [pb] w1 x st1 FO ST ltac:(cbn; lia) PL EV1 (val_bool _ _ _ VI1)) in EV.
  assert (EX : stm_at st1 (if x then pa else pb) (if x then a else b)) by (apply (stm_keeps _ _ _ _ _ _ K1), (stm_keeps _ _ _ _ _ _ K0); destruct x; assumption).
  refine (evals_stuck _ _ _ (G g st1 s _ W1 R1 L1 EX) o' st' _). destruct x; exact EV.
Qed.
Lemma when_stuck : forall m c a o, yields F m c (BoolV true) o -> stm_stuck m a -> stm_stuck m (When c a).
Proof.
  intros m c a o Y G g st s p W R L E. apply stuck_evals. intros o' st' EV. inversion E as [| | | | | |p' pc pa c' a' CO EC EA| |]; subst. destruct (code_form _ _ _ _ CO) as (tok & FO).
  assert (ST : standard st s $"if") by (eapply word_standard; try eassumption; vm_compute; tauto).
  assert (PL : Forall plain [pc; pa]) by (constructor; [eapply exp_plain; eassumption|]; repeat (constructor; [eapply stm_plain; eassumption|]); constructor).
  pose proof (after_noted F g s st m false tok W R L) as (K0 & W0 & R0 & L0 & O0).
  destruct (exp_fits F _ _ _ _ (proj1 (all_good F) _ _ _ _ Y) g _ s pc W0 R0 (exp_keeps _ _ _ _ _ _ K0 EC)) as (w1 & st1 & EV1 & VI1 & C1 & S1 & O1).
  pose proof (after_calm F g s _ st1 m false o W0 R0 L0 C1 S1 O1) as (K1 & W1 & R1 & L1 & _).
  apply (if_chooses st s p tok pc pa [] w1 true st1 FO ST ltac:(cbn; lia) PL EV1 (val_bool _ _ _ VI1)) in EV.
  exact (evals_stuck _ _ _ (G g st1 s _ W1 R1 L1 (stm_keeps _ _ _ _ _ _ K1 (stm_keeps _ _ _ _ _ _ K0 EA))) o' st' EV).
Qed.
Lemma fun_stuck : forall m f xs b vs g st0 s rs fn i fv, F f = Some (xs, b) -> length xs = length vs -> NoDup xs -> Forall (tidy F) xs ->
  stm_stuck (parameters_of xs vs) b -> world F st0 g -> view F st0 s g m -> var_at st0 g f = Some (P i (OVar fv)) -> is_fn fv fn -> vals_are st0 rs vs ->
  forall o st', ~ calls fn rs s st0 o st'.
Proof.
  intros m f xs b vs g st0 s rs fn i fv FF L ND TI GB W0 R0 VF IF VS o st' CA.
  pose proof W0 as (NU0 & HN0 & (gs & G & _) & MA & _ & DF). destruct (DF f xs b FF) as (i0 & fv0 & fn0 & fname & modname & fp & body & more & ds & VF0 & IF0 & SP & CD & XD & PA & SB).
  assert (fv0 = fv) by congruence. subst fv0. assert (fn0 = fn) by (destruct IF as [_ E1]; destruct IF0 as [_ E2]; congruence). subst fn0.
  destruct R0 as ((sc & H & EG & _) & FX0 & _).
  destruct (closure_enters st0 s sc ds fname modname fp body more rs xs H NU0 HN0) as (st1 & c & SC & NU1 & HN1 & EC & RUN).
  { rewrite EG. eapply exists_at; exact G. } { apply asks_exists; exact XD. } { exact PA. }
  pose proof (calm_starts _ _ _ _ _ _ _ _ SC) as C1. destruct SC as (FR & (sc' & csc & fill & H' & HS & HC & N1 & N2 & N3 & N4 & N5 & (N6 & NLV) & N7 & N8 & N9 & N10 & N11 & N12) & OT & REST).
  assert (sc' = sc) by congruence. subst sc'. assert (NSC : s <> c) by congruence.
  assert (LR : length rs = length xs). { rewrite L. eapply vals_length; exact VS. }
  assert (W1 : world F st1 g) by (eapply world_calm; [exact C1|exact NU1|exact HN1|exact W0]).
  assert (TX : forall x, In x xs -> tidy F x) by (apply Forall_forall; exact TI).
  assert (NP : forall x q, tidy F x -> In q private -> x <> q) by (intros x q (_ & _ & T & _) I ->; contradiction).
  assert (R1 : frame F st1 c g (parameters_of xs vs)).
  { split. { exists csc. split; [exact HC|]. split; [congruence|]. destruct XD as (dsc & HD & ND0). rewrite (NLV _ HD). exact ND0. } split; [|split].
    - intros n FN. right. destruct (MA n FN) as [_ NPR]. apply N12.
      + intro I. destruct (TX n I) as (_ & T2 & _ & T4). destruct FN; [contradiction|congruence].
      + intros ->. apply NPR. vm_compute. tauto.
      + intros ->. apply NPR. vm_compute. tauto.
    - intros x v0 PX. destruct (params_nth st0 xs rs vs L ND VS x v0 PX) as (k & i1 & w & K1 & K2 & VI & K4). exists i1, w. split; [|eapply val_keeps; [exact C1|exact VI]].
      assert (T : tidy F x) by (apply TX; eapply nth_error_In; exact K1). apply (N9 k x); [exact K1| |exact K4|apply NP; [exact T|vm_compute; tauto]|apply NP; [exact T|vm_compute; tauto]].
      rewrite nth_error_app1; [exact K2|]. apply nth_error_Some. congruence.
    - left. apply N12; [|str_ne|str_ne]. intro I. apply TX in I. apply (NP _ $"###traceon###" I); [vm_compute; tauto|reflexivity]. }
  assert (L1 : leaving st1 c false) by (exists csc; auto).
  assert (SB1 : stm_at st1 body b) by (eapply stm_keeps; [exact C1|exact SB]).
  apply call_S in CA. destruct CA as (n & CA & NF). cbn [run step r_call] in CA. unfold call in CA. rewrite CD, RUN in CA. unfold bind at 1, try_catch in CA.
  pose proof (GB g st1 c body W1 R1 L1 SB1 n) as Q. destruct (r_eval (run n) body c st1) as [o2 st2]. cbn [fst] in Q. subst o2. apply NF. injection CA as <- _. reflexivity.
Qed.
(** ** Expressions *)
Definition exp_stuck (m : store) (e : exp) : Prop := forall g st s p, world F st g -> view F st s g m -> exp_at st p e -> forall n, fst (r_eval (run n) p s st) = NoFuel.
Definition args_stuck (m : store) (es : list exp) : Prop := forall g st s ps, world F st g -> view F st s g m -> exps_at st ps es ->
  exists qs, Forall2 (looked_up st s) ps qs /\ forall st0, calm st st0 -> sane st0 -> forall n, fst (eval_args (run n) false qs s st0) = NoFuel.
Lemma calm_both : forall g st st0 s m, world F st g -> view F st s g m -> calm st st0 -> sane st0 -> world F st0 g /\ view F st0 s g m.
Proof. intros g st st0 s m W R C S. split; [eapply world_calm; [exact C|apply S|apply S|exact W]|eapply view_calm; eassumption]. Qed.
Lemma noted_both : forall g st s m tok, world F st g -> view F st s g m -> world F (noted st s tok) g /\ view F (noted st s tok) s g m /\ calm st (noted st s tok) /\ sane (noted st s tok).
Proof.
  intros g st s m tok W R. assert (S : sane (noted st s tok)) by (apply sane_noted, (world_sane _ _ _ W)). destruct (calm_both g st _ s m W R (calm_noted st s tok) S) as (A & B).
  split; [exact A|]. split; [exact B|]. split; [apply calm_noted|exact S].
Qed.
Lemma call_stuck : forall m f es xs b vs o, F f = Some (xs, b) -> yield_all F m es vs o -> length xs = length vs -> NoDup xs -> Forall (tidy F) xs -> stm_stuck (parameters_of xs vs) b -> exp_stuck m (Call f es).
Proof.
  intros m f es xs b vs o FF YA L ND TI G g st s p W R EE. apply stuck_evals. intros o' st' EV.
  inversion EE as [| | | | |p' f' ps es' CO ES| |]; subst. destruct (view_fun _ _ _ _ _ _ _ _ W R FF) as (i & fv & fn & VG & IF & M & SP). pose proof (all_good F) as (_ & GE & _).
  destruct (ordinary_call F m g st s p f ps es vs o fn W R CO ES (GE _ _ _ _ YA) M SP) as (rs & st0 & VS & C0 & S0 & O0 & Q).
  destruct (calm_both g st st0 s m W R C0 S0) as (W0 & R0).
  assert (VF : var_at st0 g f = Some (P i (OVar fv))) by (destruct C0 as (_ & _ & KV & _); rewrite KV; [exact VG|destruct W as (_ & _ & (gs & G0 & _) & _); exists gs; exact G0|intros []]).
  apply Q in EV. exact (fun_stuck m f xs b vs g st0 s rs fn i fv FF L ND TI G W0 R0 VF IF VS o' st' EV).
Qed.
(** The arguments of an ordinary function. *)
Lemma stuck_list : forall p name args st, code_of st p name args -> exists i l, p = P i (OList l).
Proof. intros p name args st (i & l & j & h & -> & _). exists i, l. reflexivity. Qed.
Lemma rest_looked : forall g st s m ps es, world F st g -> view F st s g m -> exps_at st ps es -> (forall x, In (Name x) es -> m x <> None) -> exists qs, Forall2 (looked_up st s) ps qs.
Proof.
  intros g st s m ps es W R E. induction E as [|p ps e es EH ET IH]; intro NM; [exists []; constructor|]. destruct IH as (qs & LQ); [intros x I; apply NM; right; exact I|].
  assert (LIST : (exists name args, code_of st p name args) -> exists qs0, Forall2 (looked_up st s) (p :: ps) qs0) by (intros (name & args & CO); destruct (stuck_list _ _ _ _ CO) as (i & l & ->); exists (P i (OList l) :: qs); constructor; [apply lu_list|exact LQ]).
  inversion EH; subst; try (apply LIST; eexists; eexists; eassumption).
  - eexists. constructor; [apply lu_value; eapply val_ty; eassumption|exact LQ].
  - destruct (m x) as [v|] eqn:MX; [|exfalso; apply (NM x); [left; reflexivity|exact MX]]. destruct (view_sees _ _ _ _ _ _ _ W R MX) as (i & w & SE & VI). eexists. constructor; [eapply lu_var; eassumption|exact LQ].
Qed.
Lemma arg_here : forall m e es, (forall v, e <> Const v) -> (forall x, e <> Name x) -> exp_stuck m e -> (forall x, In (Name x) es -> m x <> None) -> args_stuck m (e :: es).
Proof.
  intros m e es NC NN G NM g st s ps W R E. inversion E as [|p ps' e' es' EH ET]; subst. destruct (rest_looked g st s m ps' es W R ET NM) as (qs & LQ).
  assert (LI : exists name args, code_of st p name args). { inversion EH; subst; try (eexists; eexists; eassumption); exfalso; [eapply NC|eapply NN]; reflexivity. }
  destruct LI as (name & args & CO). destruct (stuck_list _ _ _ _ CO) as (i & l & ->). exists (P i (OList l) :: qs). split; [constructor; [apply lu_list|exact LQ]|]. intros st0 C S n.
  destruct (calm_both g st st0 s m W R C S) as (W0 & R0). pose proof (G g st0 s _ W0 R0 (exp_keeps _ _ _ _ _ _ C EH) n) as Q.
  cbn [eval_args]. unfold bind at 1, lift at 1. cbn [deref obj_is_list negb andb]. unfold bind at 1. unfold bind at 1. destruct (r_eval (run n) (P i (OList l)) s st0) as [o1 st1]. cbn [fst] in Q. subst o1. reflexivity.
Qed.
Lemma arg_later : forall m e es v o, yields F m e v o -> args_stuck m es -> args_stuck m (e :: es).
Proof.
  intros m e es v o Y G g st s ps W R E. inversion E as [|p ps' e' es' EH ET]; subst. destruct (G g st s ps' W R ET) as (qs & LQ & K). pose proof (proj1 (all_good F) _ _ _ _ Y) as GE.
  assert (LIST : (exists name args, code_of st p name args) -> exists qs0, Forall2 (looked_up st s) (p :: ps') qs0 /\ forall st0, calm st st0 -> sane st0 -> forall n, fst (eval_args (run n) false qs0 s st0) = NoFuel).
  { intros (name & args & CO). destruct (stuck_list _ _ _ _ CO) as (i & l & ->). exists (P i (OList l) :: qs). split; [constructor; [apply lu_list|exact LQ]|]. intros st0 C S n.
    destruct (calm_both g st st0 s m W R C S) as (W0 & R0). destruct (GE g st0 s _ W0 R0 (exp_keeps _ _ _ _ _ _ C EH)) as (w & st1 & EV & VI & C1 & S1 & O1).
    set (st2 := with_nid (Pos.succ (st_nid st1)) st1). assert (C2 : calm st st2). { eapply calm_trans; [exact C|]. eapply calm_trans; [exact C1|apply calm_nid]. }
    specialize (K st2 C2 (sane_nid _ _ S1) n). cbn [eval_args]. unfold bind at 1, lift at 1. cbn [deref obj_is_list negb andb]. unfold bind at 1. unfold bind at 1.
    destruct (r_eval (run n) (P i (OList l)) s st0) as [o1 st1'] eqn:Q. assert (D : o1 = NoFuel \/ o1 <> NoFuel) by (destruct o1; first [left; reflexivity|right; discriminate]). destruct D as [-> |N]; [reflexivity|].
    rewrite (eval_either _ _ _ _ _ n EV) in Q by (rewrite Q; exact N). injection Q as <- <-. unfold bind at 1, some_var, ret at 1. unfold new_var_ptr, new_ptr. unfold bind at 1, lift at 1. cbn [deref].
    rewrite (not_spliced _ (val_settled _ _ _ VI)). unfold bind. fold st2. destruct (eval_args (run n) false qs s st2) as [o3 st3]. cbn [fst] in K. subst o3. reflexivity. }
  assert (ATOM : forall i w, val_is st w v -> looked_up st s p (P i (OVar w)) -> exists qs0, Forall2 (looked_up st s) (p :: ps') qs0 /\ forall st0, calm st st0 -> sane st0 -> forall n, fst (eval_args (run n) false qs0 s st0) = NoFuel).
  { intros i w VI LU. exists (P i (OVar w) :: qs). split; [constructor; [exact LU|exact LQ]|]. intros st0 C S n. specialize (K st0 C S n). cbn [eval_args]. unfold bind, lift. cbn [deref obj_is_list andb]. unfold ret at 1. cbn [deref].
    rewrite (not_spliced _ (val_settled _ _ _ VI)). destruct (eval_args (run n) false qs s st0) as [o3 st3]. cbn [fst] in K. subst o3. reflexivity. }
  inversion EH; subst; try (apply LIST; eexists; eexists; eassumption).
  - inversion Y; subst. eapply ATOM; [eassumption|]. apply lu_value. eapply val_ty; eassumption.
  - inversion Y; subst. match goal with M : m x = Some v |- _ => destruct (view_sees _ _ _ _ _ _ _ W R M) as (i & w & SE & VI) end. eapply ATOM; [exact VI|]. eapply lu_var; eassumption.
Qed.
Lemma ordinary_stuck : forall m g st s p name args es f, world F st g -> view F st s g m -> code_of st p name args -> exps_at st args es -> args_stuck m es -> means st s name f -> fn_sp f = false ->
  forall n, fst (r_eval (run n) p s st) = NoFuel.
Proof.
  intros m g st s p name args es f W R CO E G M SP n. destruct n as [|n]; [reflexivity|]. destruct (code_form _ _ _ _ CO) as (tok & FO). destruct (G g st s args W R E) as (qs & LQ & K).
  destruct (noted_both g st s m tok W R) as (_ & _ & C & S). specialize (K _ C S n). rewrite (form_eval n _ _ _ _ _ _ qs _ FO M) by (rewrite SP; exact LQ). rewrite SP. unfold bind.
  destruct (eval_args (run n) false qs s (noted st s tok)) as [o1 st1]. cbn [fst] in K. subst o1. reflexivity.
Qed.
Lemma call_arg_stuck : forall m f es d, F f = Some d -> args_stuck m es -> exp_stuck m (Call f es).
Proof.
  intros m f es (xs & b) FF G g st s p W R EE. inversion EE as [| | | | |p' f' ps es' CO ES| |]; subst. destruct (view_fun _ _ _ _ _ _ _ _ W R FF) as (i & fv & fn & VG & IF & M & SP).
  eapply ordinary_stuck; eassumption.
Qed.
Lemma word_stuck : forall m g st s p n args es, world F st g -> view F st s g m -> code_of st p n args -> exps_at st args es -> args_stuck m es -> In n plain_words -> forall k, fst (r_eval (run k) p s st) = NoFuel.
Proof.
  intros m g st s p n args es W R CO E G I. destruct (words_sp n I) as [IW SP]. destruct (view_word _ _ _ _ _ _ W R IW) as (f & B & M). rewrite B in SP. injection SP as SP. eapply ordinary_stuck; eassumption.
Qed.
Lemma prim_arg_stuck : forall m n es vs v, prim n vs v -> args_stuck m es -> exp_stuck m (Prim n es).
Proof.
  intros m n es vs v PR G g st s p W R EE. inversion EE as [| |p' n' ps es' CO ES| | | | |]; subst. eapply word_stuck; try eassumption. eapply prim_plain; exact PR.
Qed.
(** Conditionals. *)
Lemma if_stuck_test : forall m c g st s p pc pa rest, exp_stuck m c -> world F st g -> view F st s g m -> code_of st p $"if" (pc :: pa :: rest) -> (length rest <= 1)%nat -> Forall plain (pc :: pa :: rest) -> exp_at st pc c ->
  forall o st', ~ evals p s st o st'.
Proof.
  intros m c g st s p pc pa rest G W R CO L PL EC o st' EV. destruct (code_form _ _ _ _ CO) as (tok & FO). destruct (noted_both g st s m tok W R) as (W0 & R0 & C0 & _).
  assert (ST : standard st s $"if") by (eapply view_standard; try eassumption; vm_compute; tauto). rewrite (special_builtin _ _ _ _ _ _ BIf FO ST) in EV by (try reflexivity; assumption). destruct EV as (n & EV & N).
  cbn [call_builtin] in EV. rewrite if_run in EV by exact L. pose proof (G g _ s pc W0 R0 (exp_keeps _ _ _ _ _ _ C0 EC) n) as Q. unfold bind at 1 in EV.
  destruct (r_eval (run n) pc s (noted st s tok)) as [o1 st1]. cbn [fst] in Q. subst o1. apply N. injection EV as <- _. reflexivity.
Qed.
Lemma if_stuck_branch : forall m c (x : bool) a b o g st s p pc pa pb, yields F m c (BoolV x) o -> exp_stuck m (if x then a else b) -> world F st g -> view F st s g m -> code_of st p $"if" [pc; pa; pb] ->
  exp_at st pc c -> exp_at st pa a -> exp_at st pb b -> forall o' st', ~ evals p s st o' st'.
Proof.
  intros m c x a b o g st s p pc pa pb Y G W R CO EC EA EB o' st' EV. destruct (code_form _ _ _ _ CO) as (tok & FO). destruct (noted_both g st s m tok W R) as (W0 & R0 & C0 & _).
  assert (ST : standard st s $"if") by (eapply view_standard; try eassumption; vm_compute; tauto).
  assert (PL : Forall plain [pc; pa; pb]) by (repeat (constructor; [eapply exp_plain; eassumption|]); constructor).
  destruct (proj1 (all_good F) _ _ _ _ Y g _ s pc W0 R0 (exp_keeps _ _ _ _ _ _ C0 EC)) as (w1 & st1 & EV1 & VI1 & C1 & S1 & O1). destruct (calm_both g _ st1 s m W0 R0 C1 S1) as (W1 & R1).
  apply (if_chooses st s p tok pc pa [pb] w1 x st1 FO ST ltac:(cbn; lia) PL EV1 (val_bool _ _ _ VI1)) in EV.
  assert (EX : exp_at st1 (if x then pa else pb) (if x then a else b)) by (apply (exp_keeps _ _ _ _ _ _ C1), (exp_keeps _ _ _ _ _ _ C0); destruct x; assumption).
  refine (evals_stuck _ _ _ (G g st1 s _ W1 R1 EX) o' st' _). destruct x; exact EV.
Qed.
Lemma cond_test_stuck : forall m c a b, exp_stuck m c -> exp_stuck m (Cond c a b).
Proof.
  intros m c a b G g st s p W R E. apply stuck_evals. inversion E as [| | | |p' pc pa pb c' a' b' CO EC EA EB| | |]; subst. eapply if_stuck_test; try eassumption; [cbn; lia|].
  repeat (constructor; [eapply exp_plain; eassumption|]); constructor.
Qed.
Lemma cond_stuck : forall m c (x : bool) a b o, yields F m c (BoolV x) o -> exp_stuck m (if x then a else b) -> exp_stuck m (Cond c a b).
Proof.
  intros m c x a b o Y G g st s p W R E. apply stuck_evals. inversion E as [| | | |p' pc pa pb c' a' b' CO EC EA EB| | |]; subst. eapply if_stuck_branch; eassumption.
Qed.
Lemma both_first : forall m a b, exp_stuck m a -> exp_stuck m (Both a b).
Proof.
  intros m a b G g st s p W R E. apply stuck_evals. intros o st' EV. inversion E as [| | |p' pa pb a' b' CO EA EB| | | |]; subst. destruct (code_form _ _ _ _ CO) as (tok & FO). destruct (noted_both g st s m tok W R) as (W0 & R0 & C0 & _).
  assert (ST : standard st s $"and") by (eapply view_standard; try eassumption; vm_compute; tauto).
  assert (PL : Forall plain [pa; pb]) by (repeat (constructor; [eapply exp_plain; eassumption|]); constructor).
  rewrite (special_builtin _ _ _ _ _ _ BAnd FO ST) in EV by (try reflexivity; assumption). destruct EV as (n & EV & N). cbn [call_builtin] in EV. unfold b_and in EV. cbn [bool_loop] in EV. unfold bind at 1 in EV. unfold bind at 1 in EV.
  pose proof (G g _ s pa W0 R0 (exp_keeps _ _ _ _ _ _ C0 EA) n) as Q. destruct (r_eval (run n) pa s (noted st s tok)) as [o1 st1]. cbn [fst] in Q. subst o1. apply N. injection EV as <- _. reflexivity.
Qed.
Lemma both_second : forall m a b o, yields F m a (BoolV true) o -> exp_stuck m b -> exp_stuck m (Both a b).
Proof.
  intros m a b o0 Y G g st s p W R E. apply stuck_evals. intros o st' EV. inversion E as [| | |p' pa pb a' b' CO EA EB| | | |]; subst. destruct (code_form _ _ _ _ CO) as (tok & FO). destruct (noted_both g st s m tok W R) as (W0 & R0 & C0 & _).
  assert (ST : standard st s $"and") by (eapply view_standard; try eassumption; vm_compute; tauto).
  assert (PL : Forall plain [pa; pb]) by (repeat (constructor; [eapply exp_plain; eassumption|]); constructor).
  destruct (proj1 (all_good F) _ _ _ _ Y g _ s pa W0 R0 (exp_keeps _ _ _ _ _ _ C0 EA)) as (w1 & st1 & EV1 & VI1 & C1 & S1 & O1). destruct (calm_both g _ st1 s m W0 R0 C1 S1) as (W1 & R1).
  rewrite (special_builtin _ _ _ _ _ _ BAnd FO ST) in EV by (try reflexivity; assumption). destruct EV as (n & EV & N). cbn [call_builtin] in EV. unfold b_and in EV. cbn [bool_loop] in EV. unfold bind at 1 in EV. unfold bind at 1 in EV.
  destruct (r_eval (run n) pa s (noted st s tok)) as [o1 st1'] eqn:Q. assert (D : o1 = NoFuel \/ o1 <> NoFuel) by (destruct o1; first [left; reflexivity|right; discriminate]). destruct D as [-> |N1]; [apply N; injection EV as <- _; reflexivity|].
  rewrite (eval_either _ _ _ _ _ n EV1) in Q by (rewrite Q; exact N1). injection Q as <- <-. unfold bind at 1, some_var, ret at 1 in EV. unfold bind at 1, reads at 1 in EV. rewrite (bool_value_bool _ _ _ (val_bool _ _ _ VI1)) in EV. cbn [andb] in EV.
  unfold bind at 1 in EV. pose proof (G g st1 s pb W1 R1 (exp_keeps _ _ _ _ _ _ C1 (exp_keeps _ _ _ _ _ _ C0 EB)) n) as Q2. destruct (r_eval (run n) pb s st1) as [o2 st2]. cbn [fst] in Q2. subst o2. apply N. injection EV as <- _. reflexivity.
Qed.
(** Statements with such an expression. *)
Lemma exp_stm_stuck : forall m e, exp_stuck m e -> stm_stuck m (Exp e).
Proof. intros m e G g st s p W R L E. apply (G g st s p W (frame_view _ _ _ _ _ R)). inversion E; subst; assumption. Qed.
Lemma return_stuck : forall m e, args_stuck m [e] -> stm_stuck m (Return e).
Proof.
  intros m e G g st s p W R L E. inversion E as [|p' pe e' CO EE| | | | | | |]; subst. eapply word_stuck; [exact W|apply frame_view; exact R|exact CO|constructor; [exact EE|constructor]|exact G|vm_compute; tauto].
Qed.
Lemma print_stuck : forall m e, args_stuck m [e] -> stm_stuck m (Print e).
Proof.
  intros m e G g st s p W R L E. inversion E as [| | | | | | | |p' pe e' CO EE]; subst. eapply word_stuck; [exact W|apply frame_view; exact R|exact CO|constructor; [exact EE|constructor]|exact G|vm_compute; tauto].
Qed.
Lemma def_go : forall R nm tgt i w name a1 s st, is_sym w name -> fst (r_eval R a1 s st) = NoFuel -> fst (def_helper R nm tgt [P i (OVar w); a1] s st) = NoFuel.
Proof.
  intros R nm tgt i w name a1 s st [T1 T2] Q. unfold def_helper. unfold bind at 1, check_args. cbn [length Nat.eqb negb]. unfold ret at 1. unfold bind at 1, arg at 1. cbn [nth_error]. unfold ret at 1.
  unfold bind at 1, eval_arg_if_needed at 1, bind at 1, lift at 1. cbn [deref obj_is_list vref_obj]. unfold ret at 1. unfold bind at 1, some_var at 1, ret at 1. unfold is_ty. rewrite T1. tys. cbn [orb].
  unfold bind at 1, arg at 1. cbn [nth_error]. unfold ret at 1. unfold bind at 1. destruct (r_eval R a1 s st) as [o1 st1]. cbn [fst] in Q. subst o1. reflexivity.
Qed.
Lemma def_stuck : forall m x e, exp_stuck m e -> stm_stuck m (Def x e).
Proof.
  intros m x e G g st s p W R L E. apply stuck_evals. intros o st' EV. inversion E as [| |p' px pe x' e' CO SX EE| | | | | |]; subst. destruct (code_form _ _ _ _ CO) as (tok & FO).
  destruct (noted_both g st s m tok W (frame_view _ _ _ _ _ R)) as (W0 & R0 & C0 & _). assert (ST : standard st s $"def") by (eapply word_standard; try eassumption; vm_compute; tauto).
  destruct SX as (i & w & -> & SY).
  assert (PL : Forall plain [P i (OVar w); pe]). { apply Forall_cons; [|apply Forall_cons; [eapply exp_plain; exact EE|apply Forall_nil]]. right. destruct SY as [-> _]. split; discriminate. }
  rewrite (special_builtin _ _ _ _ _ _ BDef FO ST) in EV by (try reflexivity; assumption). destruct EV as (n & EV & N). cbn [call_builtin] in EV. unfold b_def in EV.
  pose proof (def_go (run n) $"def" s i w x pe s _ SY (G g _ s pe W0 R0 (exp_keeps _ _ _ _ _ _ C0 EE) n)) as Q. rewrite EV in Q. exact (N Q).
Qed.
Lemma set_stuck : forall m x e, exp_stuck m e -> stm_stuck m (Set_ x e).
Proof.
  intros m x e G g st s p W R L E. apply stuck_evals. intros o st' EV. inversion E as [| | |p' px pe x' e' CO SX EE| | | | |]; subst. destruct (code_form _ _ _ _ CO) as (tok & FO).
  destruct (noted_both g st s m tok W (frame_view _ _ _ _ _ R)) as (W0 & R0 & C0 & _). assert (ST : standard st s $"setf") by (eapply word_standard; try eassumption; vm_compute; tauto).
  destruct SX as (i & w & -> & SY).
  assert (PL : Forall plain [P i (OVar w); pe]). { apply Forall_cons; [|apply Forall_cons; [eapply exp_plain; exact EE|apply Forall_nil]]. right. destruct SY as [-> _]. split; discriminate. }
  rewrite (special_builtin _ _ _ _ _ _ BSetf FO ST) in EV by (try reflexivity; assumption). destruct EV as (n & EV & N). cbn [call_builtin] in EV.
  destruct (standard_scope st s _ tok ST) as (sc & X). rewrite (setf_run _ _ _ _ x _ _ sc SY X) in EV. unfold bind at 1 in EV.
  pose proof (G g _ s pe W0 R0 (exp_keeps _ _ _ _ _ _ C0 EE) n) as Q. destruct (r_eval (run n) pe s (noted st s tok)) as [o1 st1]. cbn [fst] in Q. subst o1. apply N. injection EV as <- _. reflexivity.
Qed.
Lemma if_test_stuck : forall m c a b, exp_stuck m c -> stm_stuck m (If c a b).
Proof.
  intros m c a b G g st s p W R L E. apply stuck_evals. inversion E as [| | | | |p' pc pa pb c' a' b' CO EC EA EB| | |]; subst.
  eapply if_stuck_test; [exact G|exact W|apply frame_view; exact R|exact CO|cbn; lia| |exact EC]. constructor; [eapply exp_plain; eassumption|]; repeat (constructor; [eapply stm_plain; eassumption|]); constructor.
Qed.
Lemma when_test_stuck : forall m c a, exp_stuck m c -> stm_stuck m (When c a).
Proof.
  intros m c a G g st s p W R L E. apply stuck_evals. inversion E as [| | | | | |p' pc pa c' a' CO EC EA| |]; subst.
  eapply if_stuck_test; [exact G|exact W|apply frame_view; exact R|exact CO|cbn; lia| |exact EC]. constructor; [eapply exp_plain; eassumption|]; repeat (constructor; [eapply stm_plain; eassumption|]); constructor.
Qed.
Lemma loop_test : forall m c b, exp_stuck m c -> loop_stuck m c b.
Proof.
  intros m c b G g st s pc pb w0 W R L EC EB n. destruct n as [|n]; [reflexivity|]. pose proof (G g st s pc W (frame_view _ _ _ _ _ R) EC n) as Q. cbn [run step r_while]. unfold while_loop, bind.
  destruct (r_eval (run n) pc s st) as [o1 st1]. cbn [fst] in Q. subst o1. reflexivity.
Qed.
(** All of it. *)
Definition both_stuck (m : store) (b : stm) : Prop := stm_stuck m b /\ forall c b1, b = While c b1 -> loop_stuck m c b1.
Lemma both_while : forall m c b, loop_stuck m c b -> both_stuck m (While c b).
Proof. intros m c b H. split; [apply while_stuck; exact H|]. intros c' b' E. injection E as <- <-. exact H. Qed.
Lemma both_other : forall m b, (forall c b1, b <> While c b1) -> stm_stuck m b -> both_stuck m b.
Proof. intros m b N H. split; [exact H|]. intros c b1 E. exfalso. exact (N c b1 E). Qed.
Definition big_stuck (m : store) (e : exp) : Prop := exp_stuck m e /\ (forall v, e <> Const v) /\ forall x, e <> Name x.
Lemma big_of : forall m e, (forall v, e <> Const v) -> (forall x, e <> Name x) -> exp_stuck m e -> big_stuck m e.
Proof. intros m e A B C. split; [exact C|]. split; [exact A|exact B]. Qed.
Lemma big_alone : forall m e, big_stuck m e -> args_stuck m [e].
Proof. intros m e (G & NC & NN). apply arg_here; try assumption. intros x []. Qed.
Lemma all_stuck : (forall m b, never F m b -> both_stuck m b) /\ (forall m ss, never_all F m ss -> stms_stuck m ss) /\ (forall m e, never_exp F m e -> big_stuck m e) /\ (forall m es, never_arg F m es -> args_stuck m es).
Proof.
  apply never_mind.
  - intros I m c b IM ST. apply both_while. exact (loop_forever I c b ST m IM).
  - intros m c b _ (H & _). apply both_while, loop_test, H.
  - intros m c b o Y _ (H & _). apply both_while. exact (loop_inside m c b o Y H).
  - intros m c b o1 m1 v o2 Y D _ (_ & H). apply both_while. exact (loop_later m c b o1 m1 v o2 Y D (H c b eq_refl)).
  - intros m ss _ H. apply both_other; [discriminate|]. apply block_stuck, H.
  - intros m c a b _ (H & _). apply both_other; [discriminate|]. apply if_test_stuck, H.
  - intros m c x a b o Y _ (H & _). apply both_other; [discriminate|]. exact (if_stuck m c x a b o Y H).
  - intros m c a _ (H & _). apply both_other; [discriminate|]. apply when_test_stuck, H.
  - intros m c a o Y _ (H & _). apply both_other; [discriminate|]. exact (when_stuck m c a o Y H).
  - intros m e _ (H & _). apply both_other; [discriminate|]. apply exp_stm_stuck, H.
  - intros m e _ H. apply both_other; [discriminate|]. apply return_stuck, big_alone, H.
  - intros m x e _ (H & _). apply both_other; [discriminate|]. apply def_stuck, H.
  - intros m x e _ (H & _). apply both_other; [discriminate|]. apply set_stuck, H.
  - intros m e _ H. apply both_other; [discriminate|]. apply print_stuck, big_alone, H.
  - intros m b ss _ (H & _). apply here_stuck, H.
  - intros m b ss m1 v o D _ H. exact (later_stuck m b ss m1 v o D H).
  - intros m f es xs b vs o FF YA L ND TI _ (H & _). apply big_of; try discriminate. exact (call_stuck m f es xs b vs o FF YA L ND TI H).
  - intros m f es d FF _ H. apply big_of; try discriminate. exact (call_arg_stuck m f es d FF H).
  - intros m n es vs v PR _ H. apply big_of; try discriminate. exact (prim_arg_stuck m n es vs v PR H).
  - intros m c a b _ (H & _). apply big_of; try discriminate. apply cond_test_stuck, H.
  - intros m c x a b o Y _ (H & _). apply big_of; try discriminate. exact (cond_stuck m c x a b o Y H).
  - intros m a b _ (H & _). apply big_of; try discriminate. apply both_first, H.
  - intros m a b o Y _ (H & _). apply big_of; try discriminate. exact (both_second m a b o Y H).
  - intros m e es _ (H & NC & NN) NM. apply arg_here; assumption.
  - intros m e es v o Y _ H. exact (arg_later m e es v o Y H).
Qed.
End Never.
Theorem statement_never : forall F st g s p m b, world F st g -> frame F st s g m -> leaving st s false -> stm_at st p b -> never F m b -> forall o st', ~ evals p s st o st'.
Proof. intros F st g s p m b W R L E N. apply evals_stuck. exact (proj1 (proj1 (all_stuck F) m b N) g st s p W R L E). Qed.
(** ** Programs *)
Lemma define_go : forall ps defs F st rest r0, Forall2 (def_at st) ps defs -> NoDup (map fst defs) -> Forall (fun d => free_name (fst d) /\ Forall free_name (fst (snd d))) defs -> (forall d, In d defs -> F (fst d) = None) ->
  starting F st -> exists r1 st', (forall n, fst (do_loop (run n) (ps ++ rest) main_sid r0 st) <> NoFuel -> do_loop (run n) (ps ++ rest) main_sid r0 st = do_loop (run n) rest main_sid r1 st') /\
    keeps no_scope (all_made defs) st st' /\ starting (add_funs F defs) st'.
Proof.
  intros ps defs. revert ps. induction defs as [|d defs IH]; intros ps F st rest r0 PS ND FR NF SG; inversion PS as [|p ? ps' ? DA PS']; subst.
  - exists r0, st. split; [intros; reflexivity|]. split; [apply keeps_refl|exact SG].
  - inversion ND as [|? ? N1 N2]; subst. inversion FR as [|? ? [FA FB] FR']; subst.
    destruct (define F st p d SG DA FA FB (NF d (or_introl eq_refl))) as (v & st1 & EV & K1 & SG1 & O1).
    assert (PS1 : Forall2 (def_at st1) ps' defs) by (eapply defs_keep; eassumption).
    assert (NF1 : forall d', In d' defs -> add_fun F (fst d) (snd d) (fst d') = None).
    { intros d' I. unfold add_fun. destruct (list_eq_dec ascii_dec (fst d') (fst d)) as [E|]; [exfalso; apply N1; rewrite <- E; apply in_map, I|apply NF; right; exact I]. }
    destruct (IH ps' _ st1 rest (Some v) PS1 N2 FR' NF1 SG1) as (r1 & st2 & SQ & K2 & SG2). exists r1, st2. split; [|split; [|exact SG2]].
    + intros n N. destruct DA as (i & l & _ & _ & _ & _ & -> & _). cbn [app] in *. destruct (do_go _ _ _ _ _ _ _ N) as (NE & GO). specialize (GO (Some v) st1 (eval_either _ _ _ _ _ _ EV NE) (proj2 (proj2 (proj2 SG1)))).
      rewrite GO. apply SQ. rewrite <- GO. exact N.
    + eapply keeps_trans; [eapply keeps_weaken; [| |exact K1]|eapply keeps_weaken; [| |exact K2]]; try (intros u Z; exact Z); [intros u n (-> & ->); split; [reflexivity|left; reflexivity]|].
      intros u n (-> & I); split; [reflexivity|right; exact I].
Qed.
Theorem program_never : forall inp files e modname defs ss l s ks, well_named defs -> program_text defs ss l -> src_ok s -> src_kinds s ks -> writes_all l ks ->
  never_all (table defs) empty_store ss -> forall o st', ~ runs false false (src_text s) modname (init_state inp files e) o st'.
Proof.
  intros inp files e modname defs ss l s ks WN PT OK KS WR NV o st' RU. set (st := init_state inp files e) in *.
  destruct (script_reads st false modname s l ks) as (ts & t & p & st1 & _ & RD & CA & AD & HN & NU & RUN); try assumption.
  { apply reachable_heap, reach_init. }
  { apply main_here. vm_compute. exact Logic.I. }
  { eapply free_script; [|exact WN|exact PT]. intros n. apply fresh_inert. }
  specialize (NU (reachable_numbered _ (reach_init _ _ _))).
  destruct (entered_starting inp files e modname ts st1 AD HN NU) as (SG & O1 & I1 & F1 & E1 & V1).
  destruct (code_head _ _ _ _ _ RD CA) as (args & cs & CO & RS & CS). destruct PT as (l1 & l2 & -> & T1 & T2).
  destruct (defs_code st1 defs l1 l2 args cs T1 RS CS) as (q1 & q2 & ts2 & -> & DF & R2 & C2). pose proof (proj2 (stm_code st1) _ _ T2 _ _ R2 C2) as SA.
  destruct (code_form _ _ _ _ CO) as (tok & FO).
  assert (PL : Forall plain (q1 ++ q2)).
  { apply Forall_app. split; [|eapply stms_plain; exact SA]. clear -DF. induction DF as [|q d q1 defs D DF IH]; constructor; [|exact IH]. destruct D as (i & l & _ & _ & _ & _ & -> & _). exact Logic.I. }
  set (st2 := noted st1 main_sid tok). assert (K2 : calm st1 st2) by apply calm_noted.
  assert (SG2 : starting (fun _ => None) st2).
  { destruct SG as (W & NM & R & L). pose proof (after_noted _ main_sid main_sid st1 empty_store false tok W R L) as (_ & W2 & R2' & L2 & _). split; [exact W2|]. split; [|split; assumption].
    destruct NM as (i & ms & msc & N & V & S & E). exists i, ms, msc. split; [exact N|]. pose proof K2 as (_ & _ & NV2 & _). split; [rewrite NV2; [exact V|destruct R as ((sc0 & H0 & _) & _); exists sc0; exact H0|intro Z; exact Z]|].
    split; [|exact E]. unfold st2. rewrite noted_scope. destruct tok; [|exact S]. destruct (Pos.eqb_spec ms main_sid); [contradiction|exact S]. }
  destruct WN as (ND & FR).
  destruct (define_go q1 defs (fun _ => None) st2 q2 (Some vundef)) as (r1 & st3 & SQ & K3 & SG3); try assumption; [eapply defs_keep; eassumption|reflexivity|].
  assert (SG4 : starting (table defs) st3) by (eapply starting_ext; [|exact SG3]; intro x; rewrite add_funs_at by exact ND; destruct (table defs x); reflexivity).
  apply RUN in RU. assert (ST : standard st1 main_sid $"do") by (destruct SG as (W1 & _ & Rr & _); eapply word_standard; [exact W1|exact Rr|vm_compute; tauto]).
  rewrite (special_builtin _ _ _ _ _ _ BDo FO ST) in RU by (try reflexivity; exact PL). destruct RU as (n & RU & N). cbn [call_builtin] in RU. unfold b_do in RU. fold st2 in RU.
  assert (N2 : fst (do_loop (run n) (q1 ++ q2) main_sid (Some vundef) st2) <> NoFuel) by (rewrite RU; exact N). apply N2. rewrite (SQ n N2). destruct SG4 as (W4 & _ & R4 & L4).
  eapply (proj1 (proj2 (all_stuck (table defs))) empty_store ss NV main_sid); [exact W4|exact R4|exact L4|]. eapply stms_keeps; [exact K3|eapply stms_keeps; [exact K2|exact SA]].
Qed.
Lemma saved_ends : forall vb tr oe c md st o st', saves vb tr oe c md st o st' -> exists o1 st1, runs tr oe c md st o1 st1.
Proof.
  intros vb tr oe c md st o st' (n & H & N). destruct (eval_script n tr oe c md st) as [o1 st1] eqn:E. exists o1, st1. exists n. split; [exact E|].
  intros ->. unfold save_eval, try_catch in H. rewrite E in H. injection H as <- _. apply N. reflexivity.
Qed.
Theorem program_never_saved : forall inp files e vb modname defs ss l s ks, well_named defs -> program_text defs ss l -> src_ok s -> src_kinds s ks -> writes_all l ks ->
  never_all (table defs) empty_store ss -> forall o st', ~ saves vb false false (src_text s) modname (init_state inp files e) o st'.
Proof.
  intros inp files e vb modname defs ss l s ks W P S K A V o st' H. destruct (saved_ends _ _ _ _ _ _ _ _ H) as (o1 & st1 & R). exact (program_never inp files e modname defs ss l s ks W P S K A V o1 st1 R).
Qed.
Lemma trees_never : forall inp files e modname defs ss t1 t2, readable t1 -> readable t2 -> well_named defs -> program_text defs ss [data_expr t1; data_expr t2] ->
  never_all (table defs) empty_store ss -> forall o st', ~ runs false false (written t1 ++ $" " ++ written t2) modname (init_state inp files e) o st'.
Proof.
  intros inp files e modname defs ss t1 t2 R1 R2 WN PT NV o st' RU. destruct (source_writes t1 R1) as (k1 & W1 & K1). destruct (source_writes t2 R2) as (k2 & W2 & K2).
  apply (program_never inp files e modname defs ss [data_expr t1; data_expr t2] (data_source t1 [c_space] ++ data_source t2 []) (k1 ++ k2 ++ []) WN PT) with (o := o) (st' := st'); try assumption.
  - apply source_ok; [exact R1|reflexivity|intro X; discriminate|]. rewrite <- (app_nil_r (data_source t2 [])). apply source_ok; [exact R2|reflexivity|intros _; exact Logic.I|exact Logic.I].
  - rewrite app_nil_r. apply src_kinds_app_intro; [apply K1|apply K2].
  - apply ws_cons; [exact W1|]. apply ws_cons; [exact W2|constructor].
  - rewrite ReadProofs.src_text_app, !source_text, app_nil_r, <- app_assoc. exact RU.
Qed.
(** A loop that does not change its variable. *)
Definition still_test (n : Z) : exp := Bin Less (Name $"i") (Const (NumV n)).
Definition still_prog (a n : Z) : list stm := [Def $"i" (Const (NumV a)); While (still_test n) (Print (Name $"i"))].
Definition still_code (a n : Z) : list SpecMacro.code := [CList [sy $"def"; sy $"i"; nu a]; CList [sy $"while"; CList [sy $"<"; sy $"i"; nu n]; CList [sy $"println"; sy $"i"]]].
Lemma still_text : forall a n, written (CList [sy $"def"; sy $"i"; nu a]) ++ $" " ++ written (CList [sy $"while"; CList [sy $"<"; sy $"i"; nu n]; CList [sy $"println"; sy $"i"]]) =
  $"(def i " ++ z_to_string a ++ $") (while (< i " ++ z_to_string n ++ $") (println i))".
Proof. intros a n. cbn. rewrite <- ?app_assoc. reflexivity. Qed.
Lemma still_tidy : tidy (table []) $"i".
Proof. repeat split; vm_compute; intuition discriminate. Qed.
Lemma still_yields : forall m a n, m $"i" = Some (NumV a) -> yields (table []) m (still_test n) (BoolV (Z.ltb a n)) [].
Proof. intros m a n M. change (@nil ascii) with (@nil ascii ++ []). eapply yi_bin; [constructor; exact M|constructor|constructor]. Qed.
Lemma still_writes : forall a n, fits a -> fits n -> program_text [] (still_prog a n) (map data_expr (still_code a n)).
Proof.
  intros a n FA FN. exists [], (map data_expr (still_code a n)). split; [reflexivity|]. split; [constructor|]. unfold still_prog, still_code, still_test. cbn [map].
  repeat (constructor; try assumption; try (vm_compute; intuition discriminate)).
Qed.
Theorem still_loop : forall inp files e modname a n, fits a -> fits n ->
  (exists o st', runs false false ($"(def i " ++ z_to_string a ++ $") (while (< i " ++ z_to_string n ++ $") (println i))") modname (init_state inp files e) o st') <-> (n <= a)%Z.
Proof.
  intros inp files e modname a n FA FN. rewrite <- still_text. set (m := update empty_store $"i" (NumV a)). assert (M : m $"i" = Some (NumV a)) by reflexivity. split.
  - intros (o & st' & RU). destruct (Z.le_gt_cases n a) as [LE|LT]; [exact LE|exfalso]. revert RU. apply (trees_never inp files e modname [] (still_prog a n)); [tree|tree|split; constructor|exact (still_writes a n FA FN)|].
    eapply na_later; [apply do_def; [exact still_tidy|constructor]|]. apply na_here. fold m. apply (nv_forever _ (fun m1 => m1 $"i" = Some (NumV a))); [exact M|]. intros m1 M1.
    exists m1, (TextV (z_to_string a)), [], ([] ++ z_to_string a ++ [c_nl]). split; [rewrite <- (proj2 (Z.ltb_lt a n) LT); apply still_yields; exact M1|]. split; [|exact M1]. eapply do_print; [constructor; exact M1|reflexivity].
  - intro LE. destruct (trees_run inp files e modname [] (still_prog a n) (CList [sy $"def"; sy $"i"; nu a]) (CList [sy $"while"; CList [sy $"<"; sy $"i"; nu n]; CList [sy $"println"; sy $"i"]]) m NoV false ([] ++ ([] ++ []))) as (w & st' & R & _).
    + tree.
    + tree.
    + split; constructor.
    + exact (still_writes a n FA FN).
    + discriminate.
    + eapply da_next; [apply do_def; [exact still_tidy|constructor]|]. fold m. eapply da_next; [apply do_while, lo_end; rewrite <- (proj2 (Z.ltb_ge a n) LE); apply still_yields; exact M|constructor].
    + exists (Val w), st'. exact R.
Qed.
(** ** Cases for the theorems *)
Definition spin_loop : stm := While (Bin More (Name $"n") (Const (NumV 0))) (Print (Name $"n")).
Definition spin_defs : list fundef := [($"spin", ([$"n"], spin_loop))].
Definition spin_line : stm := Print (Bin Add (Const (NumV 1)) (Call $"spin" [Const (NumV 7)])).
Definition spin_prog : list stm := [spin_line].
Definition spin_code : list SpecMacro.code := [CList [sy $"defn"; sy $"spin"; CList [sy $"n"]; CList [sy $"while"; CList [sy $">"; sy $"n"; nu 0]; CList [sy $"println"; sy $"n"]]]; CList [sy $"println"; CList [sy $"+"; nu 1; CList [sy $"spin"; nu 7]]]].
Lemma spin_readable : Forall readable spin_code.
Proof. unfold spin_code; repeat apply Forall_cons; try apply Forall_nil; tree. Qed.
Lemma spin_named : well_named spin_defs.
Proof. split; [repeat constructor; intros []|]. constructor; [|constructor]. split; [free_n|]. constructor; [free_n|constructor]. Qed.
Lemma spin_text : program_text spin_defs spin_prog (map data_expr spin_code).
Proof.
  exists (map data_expr (firstn 1 spin_code)), (map data_expr (skipn 1 spin_code)). split; [reflexivity|]. split.
  - constructor; [|constructor]. eexists. split; [reflexivity|]. cbn [snd]. unfold spin_loop. repeat (constructor; try (unfold fits; lia); try (vm_compute; intuition discriminate)).
  - constructor; [|constructor]. unfold spin_line. repeat (constructor; try (unfold fits; lia); try (vm_compute; intuition discriminate)).
Qed.
Lemma spin_never : never (table spin_defs) empty_store spin_line.
Proof.
  apply nv_print. eapply nx_prim_arg with (vs := [NumV 1; NumV 1]); [apply (pr_op Add 1 1), (cm_add 1 1); unfold fits; lia|]. eapply ng_later; [constructor|]. apply ng_here; [|intros x []]. eapply nx_call with (vs := [NumV 7]); [reflexivity|apply ya_cons; constructor|reflexivity|repeat constructor; intros []| |].
  - constructor; [|constructor]. split; [discriminate|]. split; [vm_compute; intuition discriminate|]. split; [vm_compute; intuition discriminate|reflexivity].
  - apply (nv_forever _ (fun m1 => m1 $"n" = Some (NumV 7))); [reflexivity|]. intros m1 M1. do 4 eexists. split; [change true with (Z.ltb 0 7); eapply yi_bin; [constructor; exact M1|constructor|constructor]|].
    split; [|exact M1]. eapply do_print; [constructor; exact M1|reflexivity].
Qed.
Lemma ex_never_program : exists s ks, src_text s = $"(defn spin (n) (while (> n 0) (println n))) (println (+ 1 (spin 7)))" /\ src_ok s /\ src_kinds s ks /\ writes_all (map data_expr spin_code) ks /\ well_named spin_defs /\
  program_text spin_defs spin_prog (map data_expr spin_code) /\ never_all (table spin_defs) empty_store spin_prog.
Proof.
  destruct (sources_write spin_code spin_readable) as (ks & O & K & W). exists (data_sources spin_code), ks. split; [vm_compute; reflexivity|]. split; [exact O|]. split; [exact K|]. split; [exact W|].
  split; [exact spin_named|]. split; [exact spin_text|]. apply na_here, spin_never.
Qed.
Lemma ex_never_statement : exists st p, world (table spin_defs) st main_sid /\ frame (table spin_defs) st main_sid main_sid empty_store /\ leaving st main_sid false /\
  stm_at st p spin_line /\ never (table spin_defs) empty_store spin_line.
Proof.
  destruct (sources_write spin_code spin_readable) as (ks & O & K & W).
  destruct (program_loaded [] [] (Env (fun _ => true) None []) [] spin_defs spin_prog (map data_expr spin_code) (data_sources spin_code) ks) as (r1 & st3 & q2 & (WO & _ & FR & LE) & SA & _); try assumption.
  - exact spin_named.
  - exact spin_text.
  - inversion SA as [|i l ps b ss S1 S2]; subst. do 2 eexists. split; [exact WO|]. split; [exact FR|]. split; [exact LE|]. split; [exact S1|exact spin_never].
Qed.

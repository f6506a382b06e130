(** Proofs about rounding, absolute values and square roots. *)
Require Import String Ascii List ZArith Bool Lia.
Require Import Coq.Floats.SpecFloat.
From Verif Require Import Base CppString Num Token Value State Show ScopeOps Builtins Table Eval LispTop SpecLex SpecRun SpecVal SpecNum SpecFloats SpecMath.
From Verif Require Import BuiltinProofs FloatProofs.
Import ListNotations.
Open Scope Z_scope.

Lemma vdouble_is : forall d, is_dbl (vdouble d) d. Proof. intro d. split; reflexivity. Qed.
Lemma to_double_dbl : forall v d st, is_dbl v d -> to_double v st = Val d.
Proof. intros v d st [T E]. unfold to_double, double_value, is_ty. rewrite T, E. reflexivity. Qed.
Lemma to_double_int : forall v z st, is_int v z -> to_double v st = Val (f_of_z z).
Proof. intros v z st [T E]. unfold to_double, int_value, is_ty. rewrite T, E. reflexivity. Qed.
Lemma to_double_number : forall v z st, is_number v z -> exists d, to_double v st = Val d /\ whole d z /\ small z.
Proof.
  intros v z st [[I F]|(d & I & W & S)].
  - exists (f_of_z z). assert (B : Z.abs z < 2 ^ 53) by (unfold fits in F; lia). split; [apply to_double_int, I|]. split; [apply of_z_whole, B|exact B].
  - exists d. split; [apply to_double_dbl, I|]. split; assumption.
Qed.
Lemma math1_calls : forall name shown b f, builtin_code name = Some b -> (forall R args s, call_builtin R b args s = math1 shown f args s) ->
  forall v d r (Q : variant -> Prop) i s st, to_double v st = Val d -> f d = Val r -> Q (vdouble r) -> builtin_pure name [P i (OVar v)] s st Q.
Proof.
  intros name shown b f C E v d r Q i s st T F H. apply (pure_intro _ b) with (r := vdouble r); [exact C| |exact H].
  rewrite E. unfold math1, check_args, argv, arg, some, bind, lift, reads, ret. cbn [length Nat.eqb negb nth_error vref vref_obj]. rewrite T, F. reflexivity.
Qed.
Lemma code_floor : builtin_code $"Math-Floor" = Some BMathFloor. Proof. vm_compute. reflexivity. Qed.
Lemma code_ceil : builtin_code $"Math-Ceiling" = Some BMathCeil. Proof. vm_compute. reflexivity. Qed.
Lemma code_round : builtin_code $"Math-Round" = Some BMathRound. Proof. vm_compute. reflexivity. Qed.
Lemma code_trunc : builtin_code $"Math-Truncate" = Some BMathTrunc. Proof. vm_compute. reflexivity. Qed.
Lemma code_abs : builtin_code $"Math-Abs" = Some BMathAbs. Proof. vm_compute. reflexivity. Qed.
Lemma code_sqrt : builtin_code $"Math-Sqrt" = Some BMathSqrt. Proof. vm_compute. reflexivity. Qed.

(** ** Rounding to integers *)
Lemma div_small : forall n q, 2 <= q -> Z.abs n < 2 ^ 53 -> Z.abs (n / q) < 2 ^ 53.
Proof.
  intros n q Q N. pose proof (Z.div_mod n q ltac:(lia)) as D. pose proof (Z.mod_pos_bound n q ltac:(lia)) as M.
  set (x := n / q) in *. set (r := n mod q) in *. clearbody x r. assert (n = q * x + r) by lia. nia.
Qed.
Lemma round_with : forall f (Q : Z -> Z -> Z -> Prop),
  (forall n q, 2 <= q -> Z.abs n < 2 ^ 53 -> Z.abs (f n q) < 2 ^ 53 /\ Q n q (f n q)) ->
  (forall n, Q n 1 n) ->
  forall d n q, proper d -> fraction d n q -> exists z, whole (f_round_with f d) z /\ Q n q z.
Proof.
  intros f Q H1 H2 d n q P F. destruct d as [s|s| |s m e]; cbn [proper fraction] in P, F; try contradiction.
  - destruct F as [-> ->]. exists 0. split; [reflexivity|apply H2].
  - destruct P as [P1 P2]. cbn [f_round_with]. destruct (Z.leb_spec 0 e) as [E|E].
    + destruct F as [-> ->]. exists ((if s then Zneg m else Zpos m) * 2 ^ e). split; [|apply H2]. cbn [whole]. split; [split; [apply P2, E|exact P1]|]. destruct (Z.leb_spec 0 e); [reflexivity|lia].
    + destruct F as [-> ->]. assert (Q2 : 2 <= 2 ^ (- e)) by (change 2 with (2 ^ 1) at 1; apply Z.pow_le_mono_r; lia).
      assert (N : Z.abs (if s then Zneg m else Zpos m) < 2 ^ 53) by (destruct s; cbn [Z.abs]; exact P1).
      replace (if s then - Zpos m else Zpos m) with (if s then Zneg m else Zpos m) by (destruct s; reflexivity).
      destruct (H1 _ _ Q2 N) as [B K]. exists (f (if s then Zneg m else Zpos m) (2 ^ (- e))). split; [|exact K].
      destruct (Z.eqb_spec (f (if s then Zneg m else Zpos m) (2 ^ (- e))) 0) as [->|_]; [reflexivity|apply of_z_whole, B].
Qed.
Lemma floor_fits : forall n q, 2 <= q -> Z.abs n < 2 ^ 53 -> Z.abs (n / q) < 2 ^ 53 /\ below n q (n / q).
Proof.
  intros n q Q N. split; [apply div_small; assumption|]. unfold below. pose proof (Z.div_mod n q ltac:(lia)). pose proof (Z.mod_pos_bound n q ltac:(lia)). nia.
Qed.
Lemma ceil_fits : forall n q, 2 <= q -> Z.abs n < 2 ^ 53 -> Z.abs (- ((- n) / q)) < 2 ^ 53 /\ above n q (- ((- n) / q)).
Proof.
  intros n q Q N. split; [rewrite Z.abs_opp; apply div_small; [assumption|rewrite Z.abs_opp; assumption]|]. unfold above. pose proof (Z.div_mod (- n) q ltac:(lia)). pose proof (Z.mod_pos_bound (- n) q ltac:(lia)). nia.
Qed.
Lemma round_fits : forall n q, 2 <= q -> Z.abs n < 2 ^ 53 -> Z.abs (Z.sgn n * ((2 * Z.abs n + q) / (2 * q))) < 2 ^ 53 /\ nearest n q (Z.sgn n * ((2 * Z.abs n + q) / (2 * q))).
Proof.
  intros n q Q N. pose proof (Z.div_mod (2 * Z.abs n + q) (2 * q) ltac:(lia)) as D. pose proof (Z.mod_pos_bound (2 * Z.abs n + q) (2 * q) ltac:(lia)) as M.
  set (x := (2 * Z.abs n + q) / (2 * q)) in *. set (r := (2 * Z.abs n + q) mod (2 * q)) in *. clearbody x r.
  assert (X : 0 <= x) by nia.
  destruct (Z.eq_dec n 0) as [->|NZ]. { cbn [Z.sgn Z.mul Z.abs]. unfold nearest. rewrite Z.mul_0_l, Z.sub_0_r. cbn [Z.abs]. split; [lia|left; lia]. }
  assert (B : x <= Z.abs n) by nia.
  assert (K : Z.abs (Z.sgn n * x) = x) by (rewrite Z.abs_mul, (Z.abs_eq x) by lia; destruct n; [congruence|cbn [Z.sgn Z.abs]; ring|cbn [Z.sgn Z.abs]; ring]).
  split; [lia|]. unfold nearest. rewrite K.
  assert (V : Z.abs (n - Z.sgn n * x * q) = Z.abs (Z.abs n - x * q)) by (destruct n; [congruence|cbn [Z.sgn Z.abs]; f_equal; ring|cbn [Z.sgn]; change (Z.abs (Zneg p)) with (Zpos p); change (Zneg p) with (- Zpos p); replace (- Zpos p - -1 * x * q) with (- (Zpos p - x * q)) by ring; apply Z.abs_opp]).
  rewrite V. assert (Y : 2 * (Z.abs n - x * q) = r - q) by lia. clear -Y M Q.
  destruct (Z.eq_dec r 0) as [R|R].
  - right. subst r. split; [|lia]. lia.
  - left. lia.
Qed.
Lemma trunc_fits : forall n q, 2 <= q -> Z.abs n < 2 ^ 53 -> Z.abs (Z.quot n q) < 2 ^ 53 /\ inward n q (Z.quot n q).
Proof.
  intros n q Q N. unfold inward. assert (A : Z.abs (Z.quot n q) = Z.abs n / q) by (rewrite <- Z.quot_abs by lia; rewrite (Z.abs_eq q) by lia; apply Z.quot_div_nonneg; lia). rewrite A.
  assert (B : Z.abs (Z.abs n / q) < 2 ^ 53) by (apply div_small; lia). assert (C : 0 <= Z.abs n / q) by (apply Z.div_pos; lia).
  split; [lia|]. pose proof (Z.div_mod (Z.abs n) q ltac:(lia)). pose proof (Z.mod_pos_bound (Z.abs n) q ltac:(lia)). split; [nia|].
  destruct (Z_le_gt_dec 0 n) as [S|S].
  - apply Z.mul_nonneg_nonneg; [apply Z.quot_pos; lia|exact S].
  - apply Z.mul_nonpos_nonpos; [|lia]. replace n with (- (- n)) by ring. rewrite Z.quot_opp_l by lia. assert (0 <= Z.quot (- n) q) by (apply Z.quot_pos; lia). lia.
Qed.
Lemma floor_ok : forall v d n q i s st, is_dbl v d -> proper d -> fraction d n q ->
  builtin_pure $"Math-Floor" [P i (OVar v)] s st (fun r => exists z, is_whole r z /\ below n q z).
Proof.
  intros v d n q i s st I Pr F. destruct (round_with _ below floor_fits ltac:(intro k; unfold below; lia) d n q Pr F) as (z & W & K).
  apply (math1_calls _ _ _ _ code_floor (fun R args s => eq_refl) v d (ffloor d) _ i s st (to_double_dbl _ _ st I) eq_refl).
  exists z. split; [|exact K]. exists (ffloor d). split; [apply vdouble_is|exact W].
Qed.
Lemma ceil_ok : forall v d n q i s st, is_dbl v d -> proper d -> fraction d n q ->
  builtin_pure $"Math-Ceiling" [P i (OVar v)] s st (fun r => exists z, is_whole r z /\ above n q z).
Proof.
  intros v d n q i s st I Pr F. destruct (round_with _ above ceil_fits ltac:(intro k; unfold above; lia) d n q Pr F) as (z & W & K).
  apply (math1_calls _ _ _ _ code_ceil (fun R args s => eq_refl) v d (fceil d) _ i s st (to_double_dbl _ _ st I) eq_refl).
  exists z. split; [|exact K]. exists (fceil d). split; [apply vdouble_is|exact W].
Qed.
Lemma round_ok : forall v d n q i s st, is_dbl v d -> proper d -> fraction d n q ->
  builtin_pure $"Math-Round" [P i (OVar v)] s st (fun r => exists z, is_whole r z /\ nearest n q z).
Proof.
  intros v d n q i s st I Pr F. destruct (round_with _ nearest round_fits ltac:(intro k; unfold nearest; left; rewrite Z.mul_1_r, Z.sub_diag; reflexivity) d n q Pr F) as (z & W & K).
  apply (math1_calls _ _ _ _ code_round (fun R args s => eq_refl) v d (fround d) _ i s st (to_double_dbl _ _ st I) eq_refl).
  exists z. split; [|exact K]. exists (fround d). split; [apply vdouble_is|exact W].
Qed.
Lemma trunc_ok : forall v d n q i s st, is_dbl v d -> proper d -> fraction d n q ->
  builtin_pure $"Math-Truncate" [P i (OVar v)] s st (fun r => exists z, is_whole r z /\ inward n q z).
Proof.
  intros v d n q i s st I Pr F. destruct (round_with _ inward trunc_fits ltac:(intro k; unfold inward; split; [lia|apply Z.square_nonneg]) d n q Pr F) as (z & W & K).
  apply (math1_calls _ _ _ _ code_trunc (fun R args s => eq_refl) v d (ftrunc d) _ i s st (to_double_dbl _ _ st I) eq_refl).
  exists z. split; [|exact K]. exists (ftrunc d). split; [apply vdouble_is|exact W].
Qed.
Lemma whole_round : forall f d z, (forall q, 0 < q -> f (z * q) q = z) -> whole d z -> small z -> whole (f_round_with f d) z.
Proof.
  intros f d z H W S. destruct d as [s|s| |s m e]; cbn [whole] in W; try contradiction; cbn [f_round_with].
  - exact W.
  - destruct (Z.leb_spec 0 e) as [E|E]; [cbn [whole]; destruct (Z.leb_spec 0 e); [exact W|lia]|]. destruct W as [M W].
    replace (if s then - Zpos m else Zpos m) with (if s then Zneg m else Zpos m) by (destruct s; reflexivity). rewrite W, H by (apply Z.pow_pos_nonneg; lia).
    destruct (Z.eqb_spec z 0) as [->|_]; [reflexivity|apply of_z_whole, S].
Qed.
Lemma quot_mul : forall z q, 0 < q -> Z.quot (z * q) q = z. Proof. intros z q H. apply Z.quot_mul. lia. Qed.
Lemma ceil_mul : forall z q, 0 < q -> - (- (z * q) / q) = z. Proof. intros z q H. replace (- (z * q)) with (- z * q) by ring. rewrite Z.div_mul by lia. ring. Qed.
Lemma round_mul : forall z q, 0 < q -> Z.sgn (z * q) * ((2 * Z.abs (z * q) + q) / (2 * q)) = z.
Proof.
  intros z q H. rewrite Z.sgn_mul, Z.abs_mul, (Z.abs_eq q), (Z.sgn_pos q) by lia. replace (2 * (Z.abs z * q) + q) with (q + Z.abs z * (2 * q)) by ring.
  rewrite Z.div_add by lia. rewrite Z.div_small by lia. rewrite Z.mul_1_r, Z.add_0_l, Z.mul_comm. apply Z.abs_sgn.
Qed.
Lemma rounding_whole : forall name v z i s st, In name [$"Math-Floor"; $"Math-Ceiling"; $"Math-Round"; $"Math-Truncate"] -> is_number v z ->
  builtin_pure name [P i (OVar v)] s st (fun r => is_whole r z).
Proof.
  intros name v z i s st I N. destruct (to_double_number v z st N) as (d & T & W & S).
  repeat destruct I as [<-|I]; try contradiction.
  - apply (math1_calls _ _ _ _ code_floor (fun R args s => eq_refl) v d (ffloor d) _ i s st T eq_refl). exists (ffloor d). split; [apply vdouble_is|]. apply whole_round; [|exact W|exact S]. intros q Q. apply Z.div_mul. lia.
  - apply (math1_calls _ _ _ _ code_ceil (fun R args s => eq_refl) v d (fceil d) _ i s st T eq_refl). exists (fceil d). split; [apply vdouble_is|]. apply whole_round; [|exact W|exact S]. intros q Q. apply ceil_mul, Q.
  - apply (math1_calls _ _ _ _ code_round (fun R args s => eq_refl) v d (fround d) _ i s st T eq_refl). exists (fround d). split; [apply vdouble_is|]. apply whole_round; [|exact W|exact S]. intros q Q. apply round_mul, Q.
  - apply (math1_calls _ _ _ _ code_trunc (fun R args s => eq_refl) v d (ftrunc d) _ i s st T eq_refl). exists (ftrunc d). split; [apply vdouble_is|]. apply whole_round; [|exact W|exact S]. intros q Q. apply quot_mul, Q.
Qed.
Lemma rounding_not_finite : forall name v d i s st, In name [$"Math-Floor"; $"Math-Ceiling"; $"Math-Round"; $"Math-Truncate"] -> is_dbl v d -> not_finite d ->
  builtin_pure name [P i (OVar v)] s st (fun r => is_dbl r d).
Proof.
  intros name v d i s st I D N. pose proof (to_double_dbl v d st D) as T.
  assert (E : forall f, f_round_with f d = d) by (intro f; destruct d; try contradiction; reflexivity).
  repeat destruct I as [<-|I]; try contradiction.
  - apply (math1_calls _ _ _ _ code_floor (fun R args s => eq_refl) v d (ffloor d) _ i s st T eq_refl). unfold ffloor. rewrite E. apply vdouble_is.
  - apply (math1_calls _ _ _ _ code_ceil (fun R args s => eq_refl) v d (fceil d) _ i s st T eq_refl). unfold fceil. rewrite E. apply vdouble_is.
  - apply (math1_calls _ _ _ _ code_round (fun R args s => eq_refl) v d (fround d) _ i s st T eq_refl). unfold fround. rewrite E. apply vdouble_is.
  - apply (math1_calls _ _ _ _ code_trunc (fun R args s => eq_refl) v d (ftrunc d) _ i s st T eq_refl). unfold ftrunc. rewrite E. apply vdouble_is.
Qed.

(** ** Absolute values and square roots *)
Lemma abs_ok : forall v d i s st, is_dbl v d -> builtin_pure $"Math-Abs" [P i (OVar v)] s st (fun r => exists e, is_dbl r e /\ unsigned d e).
Proof.
  intros v d i s st D. apply (math1_calls _ _ _ _ code_abs (fun R args s => eq_refl) v d (fabs d) _ i s st (to_double_dbl v d st D) eq_refl).
  exists (fabs d). split; [apply vdouble_is|]. destruct d; cbn; auto.
Qed.
Lemma abs_whole : forall v z i s st, is_number v z -> builtin_pure $"Math-Abs" [P i (OVar v)] s st (fun r => is_whole r (Z.abs z)).
Proof.
  intros v z i s st N. destruct (to_double_number v z st N) as (d & T & W & S).
  apply (math1_calls _ _ _ _ code_abs (fun R args s => eq_refl) v d (fabs d) _ i s st T eq_refl). exists (fabs d). split; [apply vdouble_is|].
  destruct d as [x|x| |x m e]; cbn [whole] in W; try contradiction; unfold fabs; cbn [SFabs whole].
  - subst z. reflexivity.
  - destruct W as [M W]. split; [exact M|]. destruct (Z.leb_spec 0 e) as [E|E].
    + assert (P : 0 < 2 ^ e) by (apply Z.pow_pos_nonneg; lia). rewrite <- W, Z.abs_mul, (Z.abs_eq (2 ^ e)) by lia. destruct x; reflexivity.
    + assert (P : 0 < 2 ^ (- e)) by (apply Z.pow_pos_nonneg; lia). assert (A : Z.abs (if x then Zneg m else Zpos m) = Zpos m) by (destruct x; reflexivity).
      rewrite <- A, W, Z.abs_mul, (Z.abs_eq (2 ^ (- e))) by lia. reflexivity.
Qed.
Lemma log_square : forall z, 0 < z -> Z.div2 (Z.log2 (z * z) + 2) = Z.log2 z + 1.
Proof.
  intros z H. rewrite Z.div2_div. pose proof (Z.log2_mul_below z z H H). pose proof (Z.log2_mul_above z z ltac:(lia) ltac:(lia)).
  symmetry. apply (Z.div_unique _ 2 _ (Z.log2 (z * z) - 2 * Z.log2 z)); lia.
Qed.
Lemma sqrt_exact : forall z, 0 < z -> Z.abs (z * z) < 2 ^ 53 -> fsqrt (dbl (z * z)) = dbl z.
Proof.
  intros z P B. assert (P2 : 0 < z * z) by nia. assert (Bz : z < 2 ^ 53) by nia.
  destruct (dbl_parts (z * z) ltac:(lia) B) as (E & M & X). rewrite E. rewrite (Z.abs_eq (z * z)) in * by lia.
  set (m := Z.to_pos (man (z * z))) in *. set (e := ex (z * z)) in *.
  assert (S0 : (z * z <? 0) = false) by (apply Z.ltb_ge; lia). rewrite S0. unfold fsqrt. cbn [SFsqrt].
  unfold SFsqrt_core_binary. rewrite zdigits_log by lia. rewrite fexp_is.
  assert (LM : Z.log2 (Zpos m) + e = Z.log2 (z * z)). { apply worth_log; [lia|]. unfold worth. destruct (Z.leb_spec 0 e) as [Q|Q]; [|exact M]. assert (e = 0) by lia. rewrite H in *. change (2 ^ 0) with 1. change (2 ^ - 0) with 1 in M. lia. }
  replace (Z.log2 (Zpos m) + 1 + e + 1) with (Z.log2 (z * z) + 2) by lia. rewrite log_square by exact P.
  pose proof (log_small z ltac:(lia)) as LZ.
  set (e' := Z.min (Z.max (Z.log2 z + 1 - 53) (-1074)) (Z.div2 e)).
  assert (E1 : e' <= ex z) by (unfold e', ex; lia). assert (E2 : e' <= 0) by (unfold ex in E1; lia).
  assert (E3 : 2 * e' <= e). { assert (e' <= Z.div2 e) by (unfold e'; lia). rewrite Z.div2_div in H. pose proof (Z.mul_div_le e 2 ltac:(lia)). lia. }
  assert (Mm : match e - 2 * e' with 0 => Zpos m | Zpos _ => Z.shiftl (Zpos m) (e - 2 * e') | Zneg _ => 0 end = (z * 2 ^ (- e')) * (z * 2 ^ (- e'))).
  { assert (Q : Zpos m * 2 ^ (e - 2 * e') = (z * 2 ^ (- e')) * (z * 2 ^ (- e'))).
    { rewrite M. rewrite <- Z.mul_assoc, <- Z.pow_add_r by lia. replace (- e + (e - 2 * e')) with (- e' + - e') by lia. rewrite Z.pow_add_r by lia. ring. }
    rewrite <- Q. destruct (e - 2 * e') as [|p|p] eqn:D; [change (2 ^ 0) with 1; ring|apply Z.shiftl_mul_pow2; lia|lia]. }
  rewrite Mm. assert (PW : 0 < 2 ^ (- e')) by (apply Z.pow_pos_nonneg; lia). set (w := z * 2 ^ (- e')) in *. assert (W : 0 <= w) by (unfold w; nia).
  assert (SR : Z.sqrtrem (w * w) = (w, 0)).
  { pose proof (Z.sqrtrem_sqrt (w * w)) as A. pose proof (Z.sqrtrem_spec (w * w) ltac:(nia)) as C. destruct (Z.sqrtrem (w * w)) as [x r]. cbn [fst] in A. rewrite Z.sqrt_square in A by exact W. subst x. f_equal. lia. }
  rewrite SR. change (Zbool.Zeq_bool 0 0) with true. cbn match.
  rewrite (aux_exact false z w e') by (try assumption; try reflexivity; lia). unfold dbl. rewrite (Z.abs_eq z) by lia. replace (z <? 0) with false by (symmetry; apply Z.ltb_ge; lia). reflexivity.
Qed.
Lemma sqrt_ok : forall v z i s st, 0 <= z -> is_number v (z * z) -> builtin_pure $"Math-Sqrt" [P i (OVar v)] s st (fun r => is_whole r z).
Proof.
  intros v z i s st Z0 N. destruct (to_double_number v _ st N) as (d & T & W & S).
  apply (math1_calls _ _ _ _ code_sqrt (fun R args s => eq_refl) v d (fsqrt d) _ i s st T eq_refl). exists (fsqrt d). split; [apply vdouble_is|].
  destruct (whole_cases d _ W S) as [[Q [x ->]]|[NZ ->]].
  - assert (z = 0) by nia. subst z. reflexivity.
  - assert (P : 0 < z) by nia. rewrite sqrt_exact by (try assumption; exact S). apply whole_dbl; [lia|]. unfold small in S. nia.
Qed.

(** Doubles that are whole numbers: arithmetic on them is exact. *)
Require Import String Ascii List ZArith Bool Lia.
Require Import Coq.Floats.SpecFloat.
From Verif Require Import Base CppString Num Token Value State Builtins Eval LispTop SpecLex SpecRun SpecVal SpecNum SpecFloats SpecIo IoProofs.
Import ListNotations.
Open Scope Z_scope.

(** ** Rounding an exact value *)
Lemma digits_log : forall p, Zpos (digits2_pos p) = Z.log2 (Zpos p) + 1.
Proof.
  induction p as [p IH|p IH|].
  - cbn [digits2_pos]. rewrite Pos2Z.inj_succ, IH. rewrite (Pos2Z.inj_xI p), Z.log2_succ_double by lia. lia.
  - cbn [digits2_pos]. rewrite Pos2Z.inj_succ, IH. rewrite (Pos2Z.inj_xO p), Z.log2_double by lia. lia.
  - reflexivity.
Qed.
Lemma zdigits_log : forall m, 0 < m -> Zdigits2 m = Z.log2 m + 1.
Proof. intros [|p|p] H; try lia. cbn [Zdigits2]. apply digits_log. Qed.
Lemma fexp_is : forall k, fexp prec emax k = Z.max (k - 53) (-1074).
Proof. intros k. reflexivity. Qed.
Lemma shr_even : forall k, shr_1 (Build_shr_record (2 * k) false false) = Build_shr_record k false false.
Proof. intros [|p|p]; reflexivity. Qed.
Lemma shr_pow : forall p m, iter_pos shr_1 p (Build_shr_record (m * 2 ^ Zpos p) false false) = Build_shr_record m false false.
Proof.
  induction p as [p IH|p IH|]; intros m; cbn [iter_pos].
  - replace (m * 2 ^ Zpos p~1) with (2 * (m * 2 ^ Zpos p * 2 ^ Zpos p)).
    + rewrite shr_even, IH, IH. reflexivity.
    + rewrite (Pos2Z.inj_xI p). rewrite Z.pow_add_r by lia. replace (2 * Zpos p) with (Zpos p + Zpos p) by lia. rewrite Z.pow_add_r by lia. change (2 ^ 1) with 2. ring.
  - replace (m * 2 ^ Zpos p~0) with (m * 2 ^ Zpos p * 2 ^ Zpos p).
    + rewrite IH, IH. reflexivity.
    + rewrite (Pos2Z.inj_xO p). replace (2 * Zpos p) with (Zpos p + Zpos p) by lia. rewrite Z.pow_add_r by lia. ring.
  - change (2 ^ 1) with 2. rewrite Z.mul_comm. apply shr_even.
Qed.
Lemma shr_exact : forall m k e, 0 <= k -> SpecFloat.shr (shr_record_of_loc (m * 2 ^ k) loc_Exact) e k = (Build_shr_record m false false, e + k).
Proof.
  intros m [|p|p] e H; try lia.
  - cbn [SpecFloat.shr shr_record_of_loc]. change (2 ^ 0) with 1. rewrite Z.mul_1_r, Z.add_0_r. reflexivity.
  - cbn [SpecFloat.shr shr_record_of_loc]. rewrite shr_pow. reflexivity.
Qed.
(** The mantissa and exponent of a positive integer. *)
Definition man (n : Z) : Z := n * 2 ^ (52 - Z.log2 n).
Definition ex (n : Z) : Z := Z.log2 n - 52.
Lemma log_small : forall n, 0 < n < 2 ^ 53 -> 0 <= Z.log2 n <= 52.
Proof. intros n H. split; [apply Z.log2_nonneg|]. destruct (Z.log2_spec n) as [A _]; [lia|]. destruct (Z_le_gt_dec (Z.log2 n) 52); [assumption|]. assert (2 ^ 53 <= 2 ^ Z.log2 n) by (apply Z.pow_le_mono_r; lia). lia. Qed.
Lemma man_bounds : forall n, 0 < n < 2 ^ 53 -> 2 ^ 52 <= man n < 2 ^ 53.
Proof.
  intros n H. pose proof (log_small n H) as L. destruct (Z.log2_spec n) as [A B]; [lia|]. unfold man.
  replace (2 ^ 52) with (2 ^ Z.log2 n * 2 ^ (52 - Z.log2 n)) by (rewrite <- Z.pow_add_r by lia; f_equal; lia).
  replace (2 ^ 53) with (2 ^ Z.succ (Z.log2 n) * 2 ^ (52 - Z.log2 n)) by (rewrite <- Z.pow_add_r by lia; f_equal; lia).
  assert (0 < 2 ^ (52 - Z.log2 n)) by (apply Z.pow_pos_nonneg; lia). split; [apply Z.mul_le_mono_nonneg_r; lia|apply Z.mul_lt_mono_pos_r; lia].
Qed.
Lemma man_log : forall n, 0 < n < 2 ^ 53 -> Z.log2 (man n) = 52.
Proof. intros n H. apply Z.log2_unique; [lia|]. apply man_bounds. exact H. Qed.
Lemma log_scaled : forall n k, 0 < n -> 0 <= k -> Z.log2 (n * 2 ^ k) = Z.log2 n + k.
Proof. intros n k H K. rewrite Z.log2_mul_pow2 by lia. lia. Qed.
Lemma aux_exact : forall s n m e, 0 < n < 2 ^ 53 -> e <= ex n -> m = n * 2 ^ (- e) ->
  binary_round_aux prec emax s m e loc_Exact = S754_finite s (Z.to_pos (man n)) (ex n).
Proof.
  intros s n m e H E ->. pose proof (log_small n H) as L. unfold ex in E. pose proof (man_bounds n H) as MB. pose proof (man_log n H) as ML.
  assert (P : 0 < n * 2 ^ (- e)) by (apply Z.mul_pos_pos; [lia|apply Z.pow_pos_nonneg; lia]).
  unfold binary_round_aux, shr_fexp. rewrite zdigits_log by exact P. rewrite log_scaled by lia. rewrite fexp_is.
  replace (Z.max (Z.log2 n + - e + 1 + e - 53) (-1074) - e) with (ex n - e) by (unfold ex; lia).
  replace (n * 2 ^ (- e)) with (man n * 2 ^ (ex n - e)).
  2: { unfold man, ex. rewrite <- Z.mul_assoc, <- Z.pow_add_r by lia. do 2 f_equal. lia. }
  rewrite shr_exact by (unfold ex; lia). cbn [loc_of_shr_record shr_m round_nearest_even].
  rewrite zdigits_log by lia. rewrite ML, fexp_is.
  replace (Z.max (52 + 1 + (e + (ex n - e)) - 53) (-1074) - (e + (ex n - e))) with 0 by (unfold ex; lia).
  rewrite <- (Z.mul_1_r (man n)) at 1. change 1 with (2 ^ 0). rewrite shr_exact by lia. cbn [shr_m].
  replace (e + (ex n - e) + 0) with (ex n) by lia.
  destruct (man n) as [|p|p] eqn:M; try lia. cbn [Z.to_pos].
  assert (Q : Z.leb (ex n) (emax - prec) = true) by (apply Z.leb_le; unfold ex, emax, prec; lia).
  change (Zle_bool (ex n) (emax - prec)) with (Z.leb (ex n) (emax - prec)). rewrite Q. reflexivity.
Qed.
(** m * 2^e is the integer n *)
Definition worth (m e n : Z) : Prop := if 0 <=? e then m * 2 ^ e = n else m = n * 2 ^ (- e).
Lemma worth_log : forall m e n, 0 < m -> worth m e n -> Z.log2 m + e = Z.log2 n.
Proof.
  intros m e n P W. unfold worth in W. destruct (Z.leb_spec 0 e) as [E|E].
  - subst n. rewrite log_scaled by lia. reflexivity.
  - assert (0 < n). { destruct (Z_lt_ge_dec 0 n); [assumption|]. assert (n * 2 ^ (- e) <= 0) by (apply Z.mul_nonpos_nonneg; [lia|apply Z.pow_nonneg; lia]). lia. }
    rewrite W, log_scaled by lia. lia.
Qed.
Lemma worth_pos : forall m e n, 0 < m -> worth m e n -> 0 < n.
Proof.
  intros m e n P W. unfold worth in W. destruct (Z.leb_spec 0 e) as [E|E].
  - subst n. apply Z.mul_pos_pos; [exact P|apply Z.pow_pos_nonneg; lia].
  - destruct (Z_lt_ge_dec 0 n); [assumption|]. assert (n * 2 ^ (- e) <= 0) by (apply Z.mul_nonpos_nonneg; [lia|apply Z.pow_nonneg; lia]). lia.
Qed.
Lemma worth_shift : forall m e n k, worth m e n -> k <= e -> k <= 0 -> worth (m * 2 ^ (e - k)) k n.
Proof.
  intros m e n k W K K0. unfold worth in *. destruct (Z.leb_spec 0 k) as [Z0|Z0].
  - assert (k = 0) by lia. subst k. destruct (Z.leb_spec 0 e); [|lia]. rewrite Z.sub_0_r. rewrite <- W. change (2 ^ 0) with 1. ring.
  - destruct (Z.leb_spec 0 e) as [E|E].
    + rewrite <- W, <- Z.mul_assoc, <- Z.pow_add_r by lia. reflexivity.
    + rewrite W, <- Z.mul_assoc, <- Z.pow_add_r by lia. do 2 f_equal. lia.
Qed.
Lemma worth_at : forall m k n, k <= 0 -> worth m k n -> m = n * 2 ^ (- k).
Proof. intros m k n K W. unfold worth in W. destruct (Z.leb_spec 0 k) as [E|E]; [|exact W]. assert (k = 0) by lia. subst k. change (2 ^ 0) with 1 in W. change (2 ^ - 0) with 1. lia. Qed.
Lemma shl_is : forall m e k, fst (shl_align m e k) = Z.to_pos (if k <=? e then Zpos m * 2 ^ (e - k) else Zpos m) /\ snd (shl_align m e k) = Z.min e (if k <=? e then k else e).
Proof.
  intros m e k. unfold shl_align. destruct (k - e) as [|d|d] eqn:D; cbn [fst snd].
  - assert (k = e) by lia. subst k. rewrite Z.leb_refl, Z.sub_diag, Z.min_id, Z.mul_1_r. split; reflexivity.
  - destruct (Z.leb_spec k e); [lia|]. split; [reflexivity|lia].
  - destruct (Z.leb_spec k e); [|lia]. split; [|lia]. apply Pos2Z.inj. rewrite Z2Pos.id by (apply Z.mul_pos_pos; [lia|apply Z.pow_pos_nonneg; lia]).
    rewrite Zpower.shift_pos_correct. rewrite Zpower.Zpower_pos_nat, Z.mul_comm. f_equal. replace (e - k) with (Zpos d) by lia. rewrite <- Zpower.Zpower_pos_nat. reflexivity.
Qed.
Lemma round_exact : forall s m e n, worth (Zpos m) e n -> n < 2 ^ 53 -> binary_round prec emax s m e = S754_finite s (Z.to_pos (man n)) (ex n).
Proof.
  intros s m e n W B. pose proof (worth_pos (Zpos m) e n ltac:(lia) W) as P. pose proof (worth_log (Zpos m) e n ltac:(lia) W) as LG. pose proof (log_small n ltac:(lia)) as L.
  unfold binary_round. rewrite digits_log, fexp_is. replace (Z.max (Z.log2 (Zpos m) + 1 + e - 53) (-1074)) with (ex n) by (unfold ex; lia).
  destruct (shl_is m e (ex n)) as [A1 A2]. destruct (shl_align m e (ex n)) as [mz ez]. cbn [fst snd] in A1, A2. subst mz ez.
  assert (X : ex n <= 0) by (unfold ex; lia).
  destruct (Z.leb_spec (ex n) e) as [E|E].
  - rewrite Z2Pos.id by (apply Z.mul_pos_pos; [lia|apply Z.pow_pos_nonneg; lia]). apply aux_exact; [lia|lia|].
    rewrite Z.min_r by lia. apply worth_at; [exact X|]. apply worth_shift; assumption.
  - cbn [Z.to_pos]. rewrite Z.min_id. apply aux_exact; [lia|lia|]. apply worth_at; [lia|exact W].
Qed.
(** The representation of an integer. *)
Definition dbl (z : Z) : f64 := S754_finite (z <? 0) (Z.to_pos (man (Z.abs z))) (ex (Z.abs z)).
Definition worth_z (m e z : Z) : Prop := if 0 <=? e then m * 2 ^ e = z else m = z * 2 ^ (- e).
Lemma worth_sgn : forall m e z, worth_z m e z -> worth (Z.abs m) e (Z.abs z) /\ Z.sgn m = Z.sgn z.
Proof.
  intros m e z W. unfold worth_z, worth in *. destruct (Z.leb_spec 0 e) as [E|E].
  - subst z. assert (Q : 0 < 2 ^ e) by (apply Z.pow_pos_nonneg; lia). rewrite Z.abs_mul, Z.sgn_mul, (Z.abs_eq (2 ^ e)), (Z.sgn_pos (2 ^ e)) by lia. split; [reflexivity|ring].
  - subst m. assert (Q : 0 < 2 ^ (- e)) by (apply Z.pow_pos_nonneg; lia). rewrite Z.abs_mul, Z.sgn_mul, (Z.abs_eq (2 ^ (- e))), (Z.sgn_pos (2 ^ (- e))) by lia. split; [reflexivity|ring].
Qed.
Lemma normalize_exact : forall m e z sz, worth_z m e z -> z <> 0 -> Z.abs z < 2 ^ 53 -> binary_normalize prec emax m e sz = dbl z.
Proof.
  intros m e z sz W N B. destruct (worth_sgn _ _ _ W) as [W1 W2]. unfold dbl. destruct m as [|p|p]; cbn [binary_normalize].
  - cbn in W2. destruct z; discriminate || congruence.
  - rewrite (round_exact false p e (Z.abs z) W1 B). destruct z; try discriminate. reflexivity.
  - rewrite (round_exact true p e (Z.abs z) W1 B). destruct z; try discriminate. reflexivity.
Qed.
Lemma normalize_zero : forall m e sz, worth_z m e 0 -> binary_normalize prec emax m e sz = S754_zero sz.
Proof. intros m e sz W. destruct (worth_sgn _ _ _ W) as [_ W2]. destruct m; try discriminate. reflexivity. Qed.
Lemma whole_dbl : forall z, z <> 0 -> Z.abs z < 2 ^ 53 -> whole (dbl z) z.
Proof.
  intros z N B. unfold whole, dbl. assert (H : 0 < Z.abs z < 2 ^ 53) by lia. pose proof (man_bounds _ H) as M. pose proof (log_small _ H) as L.
  assert (Q : 0 < man (Z.abs z)) by lia. split; [rewrite Z2Pos.id by exact Q; exact M|].
  assert (V : (if z <? 0 then Zneg (Z.to_pos (man (Z.abs z))) else Zpos (Z.to_pos (man (Z.abs z)))) = z * 2 ^ (- ex (Z.abs z))).
  { replace (Zneg (Z.to_pos (man (Z.abs z)))) with (- Zpos (Z.to_pos (man (Z.abs z)))) by reflexivity. rewrite Z2Pos.id by exact Q. unfold man, ex.
    replace (- (Z.log2 (Z.abs z) - 52)) with (52 - Z.log2 (Z.abs z)) by lia. destruct (Z.ltb_spec z 0); [replace (Z.abs z) with (- z) at 1 by lia|replace (Z.abs z) with z at 1 by lia]; ring. }
  cbv zeta. rewrite V. destruct (Z.leb_spec 0 (ex (Z.abs z))) as [E|E]; [|reflexivity].
  assert (ex (Z.abs z) = 0) as -> by (unfold ex in *; lia). change (2 ^ - 0) with 1. change (2 ^ 0) with 1. ring.
Qed.
Lemma whole_unique : forall d z, whole d z -> z <> 0 -> Z.abs z < 2 ^ 53 -> d = dbl z.
Proof.
  intros d z W N B. destruct d as [s|s| |s m e]; cbn [whole] in W; try contradiction. destruct W as [M W].
  assert (WZ : worth_z (if s then Zneg m else Zpos m) e z) by exact W. destruct (worth_sgn _ _ _ WZ) as [W1 W2].
  assert (AM : Z.abs (if s then Zneg m else Zpos m) = Zpos m) by (destruct s; reflexivity). rewrite AM in W1.
  pose proof (worth_log (Zpos m) e (Z.abs z) ltac:(lia) W1) as LG. assert (LM : Z.log2 (Zpos m) = 52) by (apply Z.log2_unique; [lia|exact M]).
  pose proof (log_small (Z.abs z) ltac:(lia)) as L. assert (E : e = ex (Z.abs z)) by (unfold ex; lia). unfold dbl. subst e. f_equal.
  - destruct s; [|destruct z; cbn in W2; try discriminate; reflexivity]. destruct z; cbn in W2; try discriminate. reflexivity.
  - apply Pos2Z.inj. rewrite Z2Pos.id by (pose proof (man_bounds (Z.abs z) ltac:(lia)); lia).
    rewrite (worth_at (Zpos m) (ex (Z.abs z)) (Z.abs z) ltac:(unfold ex; lia) W1). unfold man, ex. do 2 f_equal. lia.
Qed.
Lemma whole_zero : forall d, whole d 0 -> exists s, d = S754_zero s.
Proof.
  intros [s|s| |s m e] W; cbn [whole] in W; try contradiction; [exists s; reflexivity|]. destruct W as [M W].
  assert (WZ : worth_z (if s then Zneg m else Zpos m) e 0) by exact W. destruct (worth_sgn _ _ _ WZ) as [_ W2]. destruct s; discriminate.
Qed.
Lemma whole_cases : forall d z, whole d z -> Z.abs z < 2 ^ 53 -> (z = 0 /\ exists s, d = S754_zero s) \/ (z <> 0 /\ d = dbl z).
Proof.
  intros d z W B. destruct (Z.eq_dec z 0) as [->|N]; [left; split; [reflexivity|apply whole_zero; exact W]|right; split; [exact N|apply whole_unique; assumption]].
Qed.
Lemma normalize_whole : forall m e z sz, worth_z m e z -> Z.abs z < 2 ^ 53 -> whole (binary_normalize prec emax m e sz) z.
Proof.
  intros m e z sz W B. destruct (Z.eq_dec z 0) as [->|N].
  - rewrite (normalize_zero _ _ _ W). reflexivity.
  - rewrite (normalize_exact _ _ z _ W N B). apply whole_dbl; assumption.
Qed.
Lemma of_z_whole : forall z, Z.abs z < 2 ^ 53 -> whole (f_of_z z) z.
Proof. intros z B. apply normalize_whole; [|exact B]. unfold worth_z. rewrite Z.leb_refl. change (2 ^ 0) with 1. ring. Qed.

(** ** Operations *)
Definition sg (s : bool) (m : Z) : Z := if s then - m else m.
Lemma dbl_parts : forall z, z <> 0 -> Z.abs z < 2 ^ 53 ->
  dbl z = S754_finite (z <? 0) (Z.to_pos (man (Z.abs z))) (ex (Z.abs z)) /\ Zpos (Z.to_pos (man (Z.abs z))) = Z.abs z * 2 ^ (- ex (Z.abs z)) /\ -52 <= ex (Z.abs z) <= 0.
Proof.
  intros z N B. split; [reflexivity|]. pose proof (man_bounds (Z.abs z) ltac:(lia)) as M. pose proof (log_small (Z.abs z) ltac:(lia)) as L.
  split; [|unfold ex; lia]. rewrite Z2Pos.id by lia. unfold man, ex. do 2 f_equal. lia.
Qed.
Lemma sg_abs : forall z, sg (z <? 0) (Z.abs z) = z.
Proof. intros z. unfold sg. destruct (Z.ltb_spec z 0); lia. Qed.
Lemma aligned : forall z e, z <> 0 -> Z.abs z < 2 ^ 53 -> e <= ex (Z.abs z) ->
  cond_Zopp (z <? 0) (Zpos (fst (shl_align (Z.to_pos (man (Z.abs z))) (ex (Z.abs z)) e))) = z * 2 ^ (- e).
Proof.
  intros z e N B E. destruct (dbl_parts z N B) as (_ & M & X). destruct (shl_is (Z.to_pos (man (Z.abs z))) (ex (Z.abs z)) e) as [A _].
  rewrite A. destruct (Z.leb_spec e (ex (Z.abs z))); [|lia]. rewrite M. rewrite <- Z.mul_assoc, <- Z.pow_add_r by lia.
  replace (- ex (Z.abs z) + (ex (Z.abs z) - e)) with (- e) by lia. rewrite Z2Pos.id by (apply Z.mul_pos_pos; [lia|apply Z.pow_pos_nonneg; lia]).
  change (cond_Zopp (z <? 0) (Z.abs z * 2 ^ (- e))) with (sg (z <? 0) (Z.abs z * 2 ^ (- e))). rewrite <- (sg_abs z) at 3. unfold sg. destruct (z <? 0); ring.
Qed.
Lemma worth_neg : forall z e, e <= 0 -> worth_z (z * 2 ^ (- e)) e z.
Proof. intros z e E. unfold worth_z. destruct (Z.leb_spec 0 e) as [K|K]; [|reflexivity]. assert (e = 0) as -> by lia. change (2 ^ - 0) with 1. change (2 ^ 0) with 1. ring. Qed.
Lemma add_whole : forall d1 d2 a b, whole d1 a -> whole d2 b -> Z.abs a < 2 ^ 53 -> Z.abs b < 2 ^ 53 -> Z.abs (a + b) < 2 ^ 53 -> whole (fadd d1 d2) (a + b).
Proof.
  intros d1 d2 a b W1 W2 B1 B2 B. destruct (whole_cases d1 a W1 B1) as [[-> [s1 ->]]|[N1 ->]]; destruct (whole_cases d2 b W2 B2) as [[-> [s2 ->]]|[N2 ->]].
  - unfold fadd. cbn [SFadd]. destruct (Bool.eqb s1 s2); reflexivity.
  - unfold fadd, dbl. cbn [SFadd]. exact W2.
  - unfold fadd, dbl. cbn [SFadd]. rewrite Z.add_0_r. exact W1.
  - unfold fadd, dbl. cbn [SFadd]. destruct (dbl_parts a N1 B1) as (_ & _ & X1). destruct (dbl_parts b N2 B2) as (_ & _ & X2).
    rewrite aligned by (try assumption; lia). rewrite aligned by (try assumption; lia). rewrite <- Z.mul_add_distr_r.
    apply normalize_whole; [|exact B]. apply worth_neg. lia.
Qed.
Lemma sub_whole : forall d1 d2 a b, whole d1 a -> whole d2 b -> Z.abs a < 2 ^ 53 -> Z.abs b < 2 ^ 53 -> Z.abs (a - b) < 2 ^ 53 -> whole (fsub d1 d2) (a - b).
Proof.
  intros d1 d2 a b W1 W2 B1 B2 B. destruct (whole_cases d1 a W1 B1) as [[-> [s1 ->]]|[N1 ->]]; destruct (whole_cases d2 b W2 B2) as [[-> [s2 ->]]|[N2 ->]].
  - unfold fsub. cbn [SFsub]. destruct (Bool.eqb s1 (negb s2)); reflexivity.
  - unfold fsub, dbl. cbn [SFsub]. replace (negb (b <? 0)) with (- b <? 0) by (destruct (Z.ltb_spec b 0); destruct (Z.ltb_spec (- b) 0); cbn; lia || reflexivity).
    change (0 - b) with (- b). rewrite <- (Z.abs_opp b). apply (whole_dbl (- b)); lia.
  - unfold fsub, dbl. cbn [SFsub]. rewrite Z.sub_0_r. exact W1.
  - unfold fsub, dbl. cbn [SFsub]. destruct (dbl_parts a N1 B1) as (_ & _ & X1). destruct (dbl_parts b N2 B2) as (_ & _ & X2).
    rewrite aligned by (try assumption; lia). rewrite aligned by (try assumption; lia). rewrite <- Z.mul_sub_distr_r.
    apply normalize_whole; [|exact B]. apply worth_neg. lia.
Qed.
Lemma sign_prod : forall a b, a <> 0 -> b <> 0 -> xorb (a <? 0) (b <? 0) = (a * b <? 0).
Proof. intros a b N1 N2. destruct (Z.ltb_spec a 0); destruct (Z.ltb_spec b 0); destruct (Z.ltb_spec (a * b) 0); cbn; try reflexivity; exfalso; nia. Qed.
Lemma log_prod : forall a b, 0 < a -> 0 < b -> Z.log2 a + Z.log2 b <= Z.log2 (a * b) <= Z.log2 a + Z.log2 b + 1.
Proof. intros a b A B. split; [apply Z.log2_mul_below; lia|]. pose proof (Z.log2_mul_above a b ltac:(lia) ltac:(lia)). lia. Qed.
Lemma mul_whole : forall d1 d2 a b, whole d1 a -> whole d2 b -> Z.abs a < 2 ^ 53 -> Z.abs b < 2 ^ 53 -> Z.abs (a * b) < 2 ^ 53 -> whole (fmul d1 d2) (a * b).
Proof.
  intros d1 d2 a b W1 W2 B1 B2 B. destruct (whole_cases d1 a W1 B1) as [[-> [s1 ->]]|[N1 ->]]; destruct (whole_cases d2 b W2 B2) as [[-> [s2 ->]]|[N2 ->]];
    try (unfold fmul, dbl; cbn [SFmul whole]; lia).
  unfold fmul, dbl. cbn [SFmul]. destruct (dbl_parts a N1 B1) as (_ & M1 & X1). destruct (dbl_parts b N2 B2) as (_ & M2 & X2).
  rewrite sign_prod by assumption. rewrite Pos2Z.inj_mul, M1, M2. pose proof (log_prod (Z.abs a) (Z.abs b) ltac:(lia) ltac:(lia)) as LP.
  rewrite (aux_exact _ (Z.abs (a * b))).
  - apply whole_dbl; [lia|exact B].
  - split; [|exact B]. nia.
  - rewrite Z.abs_mul. pose proof (log_small (Z.abs a) ltac:(lia)). pose proof (log_small (Z.abs b) ltac:(lia)). unfold ex in *. lia.
  - rewrite Z.abs_mul. replace (- (ex (Z.abs a) + ex (Z.abs b))) with (- ex (Z.abs a) + - ex (Z.abs b)) by lia. rewrite Z.pow_add_r by lia. ring.
Qed.
(** Division of m1 * 2^e1 by m2 * 2^e2 *)
Lemma div_core : forall s m1 e1 m2 e2 c, 0 < c < 2 ^ 53 -> e1 <= e2 -> -1074 <= e1 - e2 -> Zpos m1 = c * Zpos m2 * 2 ^ (e2 - e1) ->
  (let '(mz, ez, lz) := SFdiv_core_binary prec emax (Zpos m1) e1 (Zpos m2) e2 in binary_round_aux prec emax s mz ez lz) = S754_finite s (Z.to_pos (man c)) (ex c).
Proof.
  intros s m1 e1 m2 e2 c C E EM V. unfold SFdiv_core_binary. rewrite !zdigits_log by lia. rewrite fexp_is.
  assert (LG : Z.log2 (Zpos m1) = Z.log2 (c * Zpos m2) + (e2 - e1)) by (rewrite V; apply log_scaled; [nia|lia]).
  pose proof (log_prod c (Zpos m2) ltac:(lia) ltac:(lia)) as LP. pose proof (log_small c C) as L.
  set (e' := Z.min (Z.max (Z.log2 (Zpos m1) + 1 + e1 - (Z.log2 (Zpos m2) + 1 + e2) - 53) (-1074)) (e1 - e2)).
  assert (E' : e' <= ex c /\ e' <= e1 - e2) by (unfold e', ex; lia). destruct E' as [E1 E2].
  set (k := e1 - e2 - e'). assert (K : 0 <= k) by (unfold k; lia).
  assert (MM : (match k with Zpos _ => Z.shiftl (Zpos m1) k | Z0 => Zpos m1 | Zneg _ => 0 end) = c * 2 ^ (- e') * Zpos m2).
  { replace (match k with Zpos _ => Z.shiftl (Zpos m1) k | Z0 => Zpos m1 | Zneg _ => 0 end) with (Zpos m1 * 2 ^ k).
    - rewrite V. replace (- e') with ((e2 - e1) + k) by (unfold k; lia). rewrite Z.pow_add_r by lia. ring.
    - destruct k; [change (2 ^ 0) with 1; ring| |lia]. rewrite Z.shiftl_mul_pow2 by lia. reflexivity. }
  rewrite MM. pose proof (Z_div_mult_full (c * 2 ^ (- e')) (Zpos m2) ltac:(lia)) as D. pose proof (Z_mod_mult (c * 2 ^ (- e')) (Zpos m2)) as R.
  unfold Z.div in D. unfold Z.modulo in R. destruct (Z.div_eucl (c * 2 ^ (- e') * Zpos m2) (Zpos m2)) as [q r]. subst q r.
  replace (new_location (Zpos m2) 0) with loc_Exact by (unfold new_location, new_location_even, new_location_odd; destruct (Z.even (Zpos m2)); reflexivity).
  apply aux_exact; [exact C|exact E1|reflexivity].
Qed.
Lemma div_whole : forall d1 d2 a b c, whole d1 a -> whole d2 b -> Z.abs a < 2 ^ 53 -> Z.abs b < 2 ^ 53 -> b <> 0 -> a = c * b -> whole (fdiv d1 d2) c.
Proof.
  intros d1 d2 a b c W1 W2 B1 B2 N E. destruct (whole_cases d2 b W2 B2) as [[-> _]|[_ ->]]; [congruence|].
  destruct (whole_cases d1 a W1 B1) as [[-> [s1 ->]]|[N1 ->]]; [unfold fdiv, dbl; cbn [SFdiv whole]; nia|].
  assert (NC : c <> 0) by (intros ->; lia). assert (BC : Z.abs c < 2 ^ 53) by (rewrite E, Z.abs_mul in B1; nia).
  destruct (dbl_parts a N1 B1) as (_ & M1 & X1). destruct (dbl_parts b N B2) as (_ & M2 & X2).
  assert (S : xorb (a <? 0) (b <? 0) = (c <? 0)).
  { rewrite E. destruct (Z.ltb_spec b 0); destruct (Z.ltb_spec c 0); destruct (Z.ltb_spec (c * b) 0); cbn; try reflexivity; exfalso; nia. }
  unfold fdiv, dbl. cbn [SFdiv]. rewrite S. pose proof (whole_dbl c NC BC) as G. unfold dbl in G.
  assert (LE : Z.log2 (Z.abs b) <= Z.log2 (Z.abs a)) by (apply Z.log2_le_mono; rewrite E, Z.abs_mul; nia).
  (* the operands, brought to a common exponent *)
  assert (Q : (let '(mz, ez, lz) := SFdiv_core_binary prec emax (Zpos (Z.to_pos (man (Z.abs a)))) (ex (Z.abs a)) (Zpos (Z.to_pos (man (Z.abs b)))) (ex (Z.abs b)) in
               binary_round_aux prec emax (c <? 0) mz ez lz) = S754_finite (c <? 0) (Z.to_pos (man (Z.abs c))) (ex (Z.abs c))).
  2: { destruct (SFdiv_core_binary prec emax _ _ _ _) as [[mz ez] lz]. rewrite Q. exact G. }
  clear G. unfold SFdiv_core_binary. rewrite !zdigits_log by lia. rewrite fexp_is.
  rewrite !Z2Pos.id by (pose proof (man_bounds (Z.abs a) ltac:(lia)); pose proof (man_bounds (Z.abs b) ltac:(lia)); lia).
  rewrite !man_log by lia. rewrite Z2Pos.id in M1, M2 by (pose proof (man_bounds (Z.abs a) ltac:(lia)); pose proof (man_bounds (Z.abs b) ltac:(lia)); lia).
  pose proof (log_prod (Z.abs c) (Z.abs b) ltac:(lia) ltac:(lia)) as LP. rewrite <- Z.abs_mul, <- E in LP. pose proof (log_small (Z.abs c) ltac:(lia)) as L.
  set (e' := Z.min (Z.max (52 + 1 + ex (Z.abs a) - (52 + 1 + ex (Z.abs b)) - 53) (-1074)) (ex (Z.abs a) - ex (Z.abs b))).
  assert (E' : e' <= ex (Z.abs c) /\ e' = ex (Z.abs a) - ex (Z.abs b) - 53) by (unfold e', ex in *; lia). destruct E' as [E1 E2].
  replace (ex (Z.abs a) - ex (Z.abs b) - e') with 53 by lia. rewrite Z.shiftl_mul_pow2 by lia.
  assert (MM : man (Z.abs a) * 2 ^ 53 = Z.abs c * 2 ^ (- e') * man (Z.abs b)).
  { assert (AB : Z.abs a = Z.abs c * Z.abs b) by (rewrite E; apply Z.abs_mul). rewrite M1, M2. rewrite AB at 1. replace (- e') with (- ex (Z.abs a) + ex (Z.abs b) + 53) by lia.
    transitivity (Z.abs c * Z.abs b * (2 ^ (- ex (Z.abs a)) * 2 ^ 53)); [ring|]. rewrite <- Z.pow_add_r by lia.
    transitivity (Z.abs c * Z.abs b * (2 ^ (- ex (Z.abs a) + ex (Z.abs b) + 53) * 2 ^ (- ex (Z.abs b)))); [|ring]. rewrite <- Z.pow_add_r by (unfold ex in *; lia).
    f_equal. f_equal. lia. }
  rewrite MM. pose proof (man_bounds (Z.abs b) ltac:(lia)) as MB.
  pose proof (Z_div_mult_full (Z.abs c * 2 ^ (- e')) (man (Z.abs b)) ltac:(lia)) as D. pose proof (Z_mod_mult (Z.abs c * 2 ^ (- e')) (man (Z.abs b))) as R.
  unfold Z.div in D. unfold Z.modulo in R. destruct (Z.div_eucl (Z.abs c * 2 ^ (- e') * man (Z.abs b)) (man (Z.abs b))) as [q r]. subst q r.
  replace (new_location (man (Z.abs b)) 0) with loc_Exact by (unfold new_location, new_location_even, new_location_odd; destruct (Z.even (man (Z.abs b))); reflexivity).
  apply aux_exact; [lia|exact E1|reflexivity].
Qed.
(** ** Remainder *)
Lemma rem_abs : forall a b, b <> 0 -> Z.rem a b = sg (a <? 0) (Z.abs a mod Z.abs b).
Proof.
  intros a b N. unfold sg. destruct (Z.ltb_spec a 0) as [A|A].
  - replace a with (- Z.abs a) at 1 by lia. rewrite Z.rem_opp_l by exact N. f_equal. rewrite <- (Z.rem_abs_r (Z.abs a) b) by exact N. apply Z.rem_mod_nonneg; lia.
  - replace a with (Z.abs a) at 1 by lia. rewrite <- (Z.rem_abs_r (Z.abs a) b) by exact N. apply Z.rem_mod_nonneg; lia.
Qed.
Lemma opp_whole : forall d z, whole d z -> whole (SFopp d) (- z).
Proof.
  intros [s|s| |s m e] z W; cbn [whole SFopp] in *; try contradiction; [lia|]. destruct W as [M W]. split; [exact M|]. cbv zeta in *.
  destruct (Z.leb 0 e).
  - destruct s; cbn [negb]; lia.
  - destruct s; cbn [negb]; lia.
Qed.
Lemma mod_whole : forall d1 d2 a b, whole d1 a -> whole d2 b -> Z.abs a < 2 ^ 53 -> Z.abs b < 2 ^ 53 -> b <> 0 -> whole (ffmod d1 d2) (Z.rem a b).
Proof.
  intros d1 d2 a b W1 W2 B1 B2 N. destruct (whole_cases d2 b W2 B2) as [[-> _]|[_ ->]]; [congruence|].
  destruct (whole_cases d1 a W1 B1) as [[-> [s1 ->]]|[N1 ->]]; [unfold dbl; cbn [ffmod whole]; apply Z.rem_0_l; exact N|].
  unfold dbl. cbn [ffmod]. cbv zeta. destruct (dbl_parts a N1 B1) as (_ & M1 & X1). destruct (dbl_parts b N B2) as (_ & M2 & X2). rewrite M1, M2.
  set (e := Z.min (ex (Z.abs a)) (ex (Z.abs b))).
  replace (Z.abs a * 2 ^ (- ex (Z.abs a)) * 2 ^ (ex (Z.abs a) - e)) with (Z.abs a * 2 ^ (- e)) by (rewrite <- Z.mul_assoc, <- Z.pow_add_r by (unfold e; lia); do 2 f_equal; lia).
  replace (Z.abs b * 2 ^ (- ex (Z.abs b)) * 2 ^ (ex (Z.abs b) - e)) with (Z.abs b * 2 ^ (- e)) by (rewrite <- Z.mul_assoc, <- Z.pow_add_r by (unfold e; lia); do 2 f_equal; lia).
  assert (E : 0 < 2 ^ (- e)) by (apply Z.pow_pos_nonneg; unfold e; lia). rewrite Z.mul_mod_distr_r by lia. rewrite (rem_abs a b N).
  pose proof (Z.mod_pos_bound (Z.abs a) (Z.abs b) ltac:(lia)) as R.
  destruct (Z.eqb_spec (Z.abs a mod Z.abs b * 2 ^ (- e)) 0) as [Q|Q].
  - assert (Z.abs a mod Z.abs b = 0) as -> by nia. unfold sg. cbn [whole]. destruct (a <? 0); reflexivity.
  - assert (H : whole (binary_normalize prec emax (Z.abs a mod Z.abs b * 2 ^ (- e)) e false) (Z.abs a mod Z.abs b)).
    { apply normalize_whole; [apply worth_neg; unfold e; lia|lia]. }
    unfold sg. destruct (a <? 0); [apply opp_whole|]; exact H.
Qed.
(** ** Comparison *)
Lemma compare_dbl : forall a b, a <> 0 -> b <> 0 -> Z.abs a < 2 ^ 53 -> Z.abs b < 2 ^ 53 -> SFcompare (dbl a) (dbl b) = Some (Z.compare a b).
Proof.
  intros a b N1 N2 B1 B2.
  assert (K : forall x y, 0 < x < 2 ^ 53 -> 0 < y < 2 ^ 53 ->
    match Z.compare (ex x) (ex y) with Lt => Lt | Gt => Gt | Eq => Pos.compare_cont Eq (Z.to_pos (man x)) (Z.to_pos (man y)) end = Z.compare x y).
  { intros x y X Y. pose proof (man_bounds x X) as MX. pose proof (man_bounds y Y) as MY. unfold ex.
    destruct (Z.compare_spec (Z.log2 x - 52) (Z.log2 y - 52)) as [L|L|L].
    - assert (L' : Z.log2 x = Z.log2 y) by lia. change (Pos.compare_cont Eq (Z.to_pos (man x)) (Z.to_pos (man y))) with (Z.compare (Zpos (Z.to_pos (man x))) (Zpos (Z.to_pos (man y)))).
      rewrite !Z2Pos.id by lia. unfold man. rewrite L'. assert (0 < 2 ^ (52 - Z.log2 y)) by (apply Z.pow_pos_nonneg; [lia|pose proof (log_small y Y); lia]).
      destruct (Z.compare_spec x y) as [Q|Q|Q].
      + subst. apply Z.compare_refl.
      + apply Z.compare_lt_iff. nia.
      + apply Z.compare_gt_iff. nia.
    - symmetry. apply Z.compare_lt_iff. apply Z.log2_lt_cancel. lia.
    - symmetry. apply Z.compare_gt_iff. apply Z.log2_lt_cancel. lia. }
  unfold dbl. cbn [SFcompare]. f_equal. unfold Pcompare in *.
  destruct (Z.ltb_spec a 0) as [A|A]; destruct (Z.ltb_spec b 0) as [B|B].
  - pose proof (K (Z.abs a) (Z.abs b) ltac:(lia) ltac:(lia)) as Q.
    assert (F : Z.compare a b = CompOpp (Z.compare (Z.abs a) (Z.abs b))).
    { destruct (Z.compare_spec (Z.abs a) (Z.abs b)); cbn [CompOpp]; [apply Z.compare_eq_iff|apply Z.compare_gt_iff|apply Z.compare_lt_iff]; lia. }
    rewrite F, <- Q. destruct (ex (Z.abs a) ?= ex (Z.abs b)); reflexivity.
  - symmetry. apply Z.compare_lt_iff. lia.
  - symmetry. apply Z.compare_gt_iff. lia.
  - pose proof (K (Z.abs a) (Z.abs b) ltac:(lia) ltac:(lia)) as Q. rewrite Q. rewrite !Z.abs_eq by lia. reflexivity.
Qed.
Lemma compare_whole : forall d1 d2 a b, whole d1 a -> whole d2 b -> Z.abs a < 2 ^ 53 -> Z.abs b < 2 ^ 53 -> SFcompare d1 d2 = Some (Z.compare a b).
Proof.
  intros d1 d2 a b W1 W2 B1 B2. destruct (whole_cases d1 a W1 B1) as [[-> [s1 ->]]|[N1 ->]]; destruct (whole_cases d2 b W2 B2) as [[-> [s2 ->]]|[N2 ->]].
  - reflexivity.
  - unfold dbl. cbn [SFcompare]. f_equal. destruct b; try congruence; reflexivity.
  - unfold dbl. cbn [SFcompare]. f_equal. destruct a; try congruence; reflexivity.
  - apply compare_dbl; assumption.
Qed.
Lemma ltb_whole : forall d1 d2 a b, whole d1 a -> whole d2 b -> Z.abs a < 2 ^ 53 -> Z.abs b < 2 ^ 53 -> fltb d1 d2 = (a <? b).
Proof. intros d1 d2 a b W1 W2 B1 B2. unfold fltb, SFltb. rewrite (compare_whole d1 d2 a b W1 W2 B1 B2). unfold Z.ltb. destruct (a ?= b); reflexivity. Qed.
Lemma leb_whole : forall d1 d2 a b, whole d1 a -> whole d2 b -> Z.abs a < 2 ^ 53 -> Z.abs b < 2 ^ 53 -> fleb d1 d2 = (a <=? b).
Proof. intros d1 d2 a b W1 W2 B1 B2. unfold fleb, SFleb. rewrite (compare_whole d1 d2 a b W1 W2 B1 B2). unfold Z.leb. destruct (a ?= b); reflexivity. Qed.
(** Two whole numbers differ by less than the tolerance only if they are equal. *)
Lemma tol_whole : forall d z, whole d z -> Z.abs z < 2 ^ 53 -> fltb (fabs d) Show.tolerance = (z =? 0) /\ fltb Show.tolerance (fabs d) = negb (z =? 0).
Proof.
  intros d z W B. destruct (whole_cases d z W B) as [[-> [s ->]]|[N ->]].
  - split; vm_compute; reflexivity.
  - destruct (Z.eqb_spec z 0); [congruence|]. assert (T : Show.tolerance = S754_finite false 6044629098073146 (-79)) by (vm_compute; reflexivity).
    rewrite T. unfold fltb, SFltb, fabs, dbl. cbn [SFabs SFcompare]. destruct (dbl_parts z N B) as (_ & _ & X).
    assert (C1 : (ex (Z.abs z) ?= -79) = Gt) by (apply Z.compare_gt_iff; lia). assert (C2 : (-79 ?= ex (Z.abs z)) = Lt) by (apply Z.compare_lt_iff; lia).
    rewrite C1, C2. split; reflexivity.
Qed.
Lemma eq_whole : forall d1 d2 a b, whole d1 a -> whole d2 b -> Z.abs a < 2 ^ 53 -> Z.abs b < 2 ^ 53 -> Z.abs (a - b) < 2 ^ 53 -> fltb (fabs (fsub d1 d2)) Show.tolerance = (a =? b).
Proof.
  intros d1 d2 a b W1 W2 B1 B2 B. destruct (tol_whole (fsub d1 d2) (a - b) (sub_whole _ _ _ _ W1 W2 B1 B2 B) B) as [-> _].
  destruct (Z.eqb_spec (a - b) 0); destruct (Z.eqb_spec a b); try reflexivity; lia.
Qed.
(** ** Conversion to int and to text *)
Lemma trunc_toward : forall d z, f_trunc_z d = Some z <-> toward_zero d z.
Proof.
  intros [s|s| |s m e] z; cbn [f_trunc_z toward_zero]; try (split; [discriminate|contradiction]).
  - split; [intros H; injection H as <-; reflexivity|intros ->; reflexivity].
  - cbv zeta. destruct (Z.leb_spec 0 e) as [E|E].
    + replace (if s then - (Zpos m * 2 ^ e) else Zpos m * 2 ^ e) with ((if s then Zneg m else Zpos m) * 2 ^ e) by (destruct s; [rewrite <- Pos2Z.opp_pos|]; ring).
      split; [intros H; injection H as <-; reflexivity|intros ->; reflexivity].
    + assert (P : 0 < 2 ^ (- e)) by (apply Z.pow_pos_nonneg; lia). pose proof (Z.div_mod (Zpos m) (2 ^ (- e)) ltac:(lia)) as D. pose proof (Z.mod_pos_bound (Zpos m) (2 ^ (- e)) P) as R.
      pose proof (Z.div_pos (Zpos m) (2 ^ (- e)) ltac:(lia) P) as Q. split.
      * intros H. injection H as <-. destruct s; rewrite ?Z.abs_opp, Z.abs_eq by lia; split; nia.
      * intros [H1 H2]. assert (U : Z.abs z = Zpos m / 2 ^ (- e)) by nia. rewrite <- U. f_equal. destruct s; nia.
Qed.
Lemma toward_whole : forall d z, whole d z -> toward_zero d z.
Proof.
  intros [s|s| |s m e] z W; cbn [whole toward_zero] in *; try contradiction; [exact W|]. destruct W as [_ W]. cbv zeta in *.
  destruct (Z.leb_spec 0 e) as [E|E]; [symmetry; exact W|]. assert (P : 0 < 2 ^ (- e)) by (apply Z.pow_pos_nonneg; lia). rewrite W. destruct s; nia.
Qed.
Lemma toward_unique : forall d y z, toward_zero d y -> toward_zero d z -> y = z.
Proof. intros d y z Y Z1. apply trunc_toward in Y. apply trunc_toward in Z1. congruence. Qed.
Lemma text_whole : forall d z, whole d z -> z <> 0 -> Z.abs z < 2 ^ 53 -> f_to_string d = z_to_string z ++ $".000000".
Proof.
  intros d z W N B. rewrite (whole_unique d z W N B). destruct (dbl_parts z N B) as (_ & M & X). unfold dbl. cbn [f_to_string]. cbv zeta.
  assert (U : (if 0 <=? ex (Z.abs z) then Zpos (Z.to_pos (man (Z.abs z))) * 2 ^ ex (Z.abs z) * 1000000
    else round_div_even (Zpos (Z.to_pos (man (Z.abs z))) * 1000000) (2 ^ (- ex (Z.abs z)))) = Z.abs z * 1000000).
  { rewrite M. destruct (Z.leb_spec 0 (ex (Z.abs z))) as [E|E].
    - assert (ex (Z.abs z) = 0) as -> by lia. change (2 ^ - 0) with 1. change (2 ^ 0) with 1. ring.
    - unfold round_div_even. assert (P : 0 < 2 ^ (- ex (Z.abs z))) by (apply Z.pow_pos_nonneg; lia).
      replace (Z.abs z * 2 ^ (- ex (Z.abs z)) * 1000000) with (Z.abs z * 1000000 * 2 ^ (- ex (Z.abs z))) by ring. rewrite Z.div_mul by lia. rewrite Z.mod_mul by lia.
      cbv zeta. destruct (Z.ltb_spec (2 * 0) (2 ^ (- ex (Z.abs z)))); [reflexivity|lia]. }
  rewrite U. rewrite Z.div_mul by lia. rewrite Z.mod_mul by lia. change (pad6 0) with $"000000".
  change ($"." ++ $"000000") with $".000000". unfold z_to_string. destruct (Z.ltb_spec z 0).
  - replace (Z.abs z) with (- z) by lia. reflexivity.
  - replace (Z.abs z) with z by lia. reflexivity.
Qed.
(** ** Reading a decimal number *)
Lemma mant_digits : forall ds rest dot acc frac nd n, forallb is_digit ds = true ->
  take_mant is_digit digit_val 10 (ds ++ rest) dot acc frac nd n =
  take_mant is_digit digit_val 10 rest dot (dec_value acc ds) (if dot then frac + Z.of_nat (length ds) else frac) (nd + length ds) (n + length ds).
Proof.
  induction ds as [|c ds IH]; intros rest dot acc frac nd n H.
  - cbn [app dec_value length]. rewrite !Nat.add_0_r. change (Z.of_nat 0) with 0. rewrite Z.add_0_r. destruct dot; reflexivity.
  - cbn [forallb] in H. apply andb_true_iff in H. destruct H as [H1 H2]. cbn [app take_mant]. rewrite H1. rewrite IH by exact H2. cbn [dec_value length].
    rewrite !Nat.add_succ_comm. unfold digit_val at 1. f_equal. destruct dot; [|reflexivity]. rewrite Nat2Z.inj_succ. lia.
Qed.
Lemma mant_end : forall rest dot acc frac nd n, ends_number rest -> take_mant is_digit digit_val 10 rest dot acc frac nd n = (acc, frac, nd, n).
Proof.
  intros [|c rest] dot acc frac nd n H; [reflexivity|]. destruct H as [H1 H2]. cbn [take_mant]. rewrite H1.
  destruct (Ascii.eqb_spec c "."%char) as [->|_]; [exfalso; apply H2; left; reflexivity|]. rewrite andb_false_r. reflexivity.
Qed.
Lemma low_e : forall c, c <> "e"%char -> c <> "E"%char -> Ascii.eqb (to_lower_c c) "e" = false.
Proof. intros c. destruct (Ascii.eqb_spec (to_lower_c c) "e") as [E|E]; [|reflexivity]. revert E. destruct c as [[] [] [] [] [] [] [] []]; vm_compute; congruence. Qed.
Lemma exp_end : forall rest, ends_number rest -> take_exp "e" rest = (0, 0%nat).
Proof.
  intros [|c rest] H; [reflexivity|]. destruct H as [_ H]. cbn [take_exp]. rewrite low_e; [reflexivity| |]; intros ->; apply H; cbn; tauto.
Qed.
Lemma zeros_digits : forall k, forallb is_digit (repeat "0"%char k) = true.
Proof. induction k as [|k IH]; [reflexivity|]. cbn [repeat forallb]. rewrite IH. reflexivity. Qed.
Lemma zeros_value : forall k acc, dec_value acc (repeat "0"%char k) = acc * 10 ^ Z.of_nat k.
Proof.
  induction k as [|k IH]; intros acc; [cbn; lia|]. cbn [repeat dec_value]. rewrite IH. rewrite Nat2Z.inj_succ, Z.pow_succ_r by lia.
  change (Z.of_nat (nat_of_ascii "0") - 48) with 0. ring.
Qed.
Lemma frac_whole : forall neg n k, 0 <= n < 2 ^ 53 -> 0 <= k -> exists f, f_frac_erange neg (n * 10 ^ k) (10 ^ k) = (f, false) /\ whole f (sg neg n).
Proof.
  intros neg n k N K. assert (T : 0 < 10 ^ k) by (apply Z.pow_pos_nonneg; lia). destruct (Z.eq_dec n 0) as [->|Z0].
  - exists (S754_zero neg). split; [|destruct neg; reflexivity]. unfold f_frac_erange. cbn [Z.mul]. reflexivity.
  - assert (P : 0 < n * 10 ^ k) by nia. unfold f_frac_erange. destruct (n * 10 ^ k) as [|p|p] eqn:E1; try lia. destruct (10 ^ k) as [|q|q] eqn:E2; try lia.
    assert (D : f_of_frac neg p q = S754_finite neg (Z.to_pos (man n)) (ex n)).
    { unfold f_of_frac. apply (div_core neg p 0 q 0 n); [lia|lia|lia|]. change (2 ^ (0 - 0)) with 1. lia. }
    rewrite D. eexists. split.
    + f_equal. assert (G : Zpos p * 2 ^ 1022 <? Zpos q = false).
      { apply Z.ltb_ge. assert (1 <= 2 ^ 1022) by (clear; assert (0 < 2 ^ 1022) by (apply Z.pow_pos_nonneg; lia); lia). generalize dependent (2 ^ 1022). intros h H. clear -P H E1 N Z0. nia. }
      rewrite G. reflexivity.
    + pose proof (whole_dbl (sg neg n)) as W. assert (A : Z.abs (sg neg n) = n) by (unfold sg; destruct neg; lia). unfold dbl in W. rewrite A in W.
      replace (sg neg n <? 0) with neg in W by (unfold sg; destruct neg; [symmetry; apply Z.ltb_lt; lia|symmetry; apply Z.ltb_ge; lia]).
      apply W; [unfold sg; destruct neg; lia|lia].
Qed.
Lemma lower_digit : forall c p, is_digit c = true -> forall d ds, p = d :: ds -> is_digit d = false -> forall s, lower_prefix p (c :: s) = false.
Proof.
  intros c p C d ds -> D s. unfold lower_prefix. cbn [map prefixb]. destruct (Ascii.eqb_spec d (to_lower_c c)) as [->|_]; [|reflexivity].
  exfalso. revert C D. destruct c as [[] [] [] [] [] [] [] []]; vm_compute; congruence.
Qed.
(** strtod after the sign *)
Lemma no_hex : forall c ds rest, is_digit c = true -> forallb is_digit ds = true -> (match rest with [] => True | x :: _ => x <> "x"%char /\ x <> "X"%char end) ->
  lower_prefix $"0x" (c :: ds ++ rest) = false.
Proof.
  intros c ds rest C D R. unfold lower_prefix. cbn [map]. change ($"0x") with ["0"%char; "x"%char]. cbn [prefixb]. destruct (Ascii.eqb "0" (to_lower_c c)); [|reflexivity].
  cbn [andb]. assert (X : forall y, y <> "x"%char -> y <> "X"%char -> Ascii.eqb "x" (to_lower_c y) = false).
  { intros y Y1 Y2. destruct (Ascii.eqb_spec "x" (to_lower_c y)) as [E|E]; [|reflexivity]. revert E Y1 Y2. destruct y as [[] [] [] [] [] [] [] []]; vm_compute; congruence. }
  destruct ds as [|d ds].
  - destruct rest as [|x rest]; [reflexivity|]. cbn [app map prefixb]. rewrite X by tauto. reflexivity.
  - cbn [forallb] in D. apply andb_true_iff in D. destruct D as [D _]. cbn [app map prefixb]. rewrite X; [reflexivity| |]; intros ->; discriminate.
Qed.
Lemma dec_nonneg : forall l a, 0 <= a -> forallb is_digit l = true -> 0 <= dec_value a l.
Proof.
  induction l as [|x l IH]; intros a A H; [exact A|]. cbn [forallb] in H. apply andb_true_iff in H. destruct H as [H1 H2]. cbn [dec_value]. apply IH; [|exact H2].
  unfold is_digit in H1. apply andb_true_iff in H1. destruct H1 as [H1 _]. apply Nat.leb_le in H1. lia.
Qed.
Lemma strtod_body : forall s g sn c ds rest k (dotted : bool), take_sign (drop_space s) = (g, sn) ->
  skipn sn (drop_space s) = (c :: ds) ++ (if dotted then "."%char :: repeat "0"%char k else []) ++ rest ->
  forallb is_digit (c :: ds) = true -> dec_value 0 (c :: ds) < 2 ^ 53 -> ends_number rest ->
  exists f n, strtod s = Some (f, false, n) /\ whole f (sg (g <? 0) (dec_value 0 (c :: ds))).
Proof.
  intros s g sn c ds rest k dotted TS SK D B R. pose proof D as D0. cbn [forallb] in D. apply andb_true_iff in D. destruct D as [D1 D2].
  pose proof (dec_nonneg (c :: ds) 0 ltac:(lia) D0) as V. set (v := dec_value 0 (c :: ds)) in *. set (tail := (if dotted then "."%char :: repeat "0"%char k else []) ++ rest) in *.
  assert (L1 : lower_prefix $"infinity" (c :: ds ++ tail) = false) by (eapply lower_digit; [exact D1|reflexivity|reflexivity]).
  assert (L2 : lower_prefix $"inf" (c :: ds ++ tail) = false) by (eapply lower_digit; [exact D1|reflexivity|reflexivity]).
  assert (L3 : lower_prefix $"nan" (c :: ds ++ tail) = false) by (eapply lower_digit; [exact D1|reflexivity|reflexivity]).
  assert (L4 : lower_prefix $"0x" (c :: ds ++ tail) = false).
  { apply no_hex; [exact D1|exact D2|]. subst tail. destruct dotted; [cbn [app]; split; discriminate|]. cbn [app]. destruct rest as [|x rest]; [exact I|].
    destruct R as [_ R]. split; intros ->; apply R; cbn; tauto. }
  unfold strtod. rewrite skip_drop, TS. cbv zeta iota beta. rewrite SK. change ((c :: ds) ++ tail) with (c :: ds ++ tail).
  rewrite L1, L2, L3, L4. cbv iota beta. change (c :: ds ++ tail) with ((c :: ds) ++ tail).
  assert (TM : exists n, take_mant is_digit digit_val 10 ((c :: ds) ++ tail) false 0 0 0 0 = (v * 10 ^ (if dotted then Z.of_nat k else 0), (if dotted then Z.of_nat k else 0), (length (c :: ds) + (if dotted then k else 0))%nat, n) /\
    skipn n ((c :: ds) ++ tail) = rest).
  { rewrite mant_digits by exact D0. fold v. subst tail. destruct dotted.
    - cbn [app take_mant]. change (is_digit ".") with false. cbn [negb andb]. rewrite mant_digits by apply zeros_digits. rewrite mant_end by exact R.
      rewrite repeat_length, zeros_value. eexists. split; [reflexivity|].
      replace (S (0 + length (c :: ds)) + k)%nat with (length ((c :: ds) ++ "."%char :: repeat "0"%char k)) by (rewrite app_length; cbn [length]; rewrite repeat_length; lia).
      change (c :: ds ++ "."%char :: repeat "0"%char k ++ rest) with ((c :: ds) ++ ("."%char :: repeat "0"%char k) ++ rest). rewrite app_assoc, skipn_app, skipn_all, Nat.sub_diag. reflexivity.
    - cbn [app]. rewrite mant_end by exact R. eexists. split; [rewrite Z.mul_1_r, Nat.add_0_r; reflexivity|].
      change (c :: ds ++ rest) with ((c :: ds) ++ rest). replace (0 + length (c :: ds))%nat with (length (c :: ds)) by lia. rewrite skipn_app, skipn_all, Nat.sub_diag. reflexivity. }
  destruct TM as (n & -> & SN). cbv iota beta. cbn [length Nat.add]. rewrite SN, (exp_end rest R). cbv iota beta.
  set (kk := if dotted then Z.of_nat k else 0). assert (KK : 0 <= kk) by (unfold kk; destruct dotted; lia).
  destruct (frac_whole (g <? 0) v kk ltac:(lia) KK) as (f & F & W).
  assert (X : (if 0 <=? 0 - kk then f_frac_erange (g <? 0) (v * 10 ^ kk * 10 ^ (0 - kk)) 1 else f_frac_erange (g <? 0) (v * 10 ^ kk) (10 ^ (- (0 - kk)))) = (f, false)).
  { destruct (Z.leb_spec 0 (0 - kk)) as [Q|Q].
    - assert (KZ : kk = 0) by lia. rewrite KZ in *. change (10 ^ (0 - 0)) with 1. rewrite Z.mul_1_r. exact F.
    - replace (- (0 - kk)) with kk by lia. exact F. }
  rewrite X. cbv iota beta. eexists. eexists. split; [reflexivity|exact W].
Qed.
Lemma strtod_text : forall ws w rest z, forallb is_space ws = true -> decimal_text w z -> Z.abs z < 2 ^ 53 -> ends_number rest ->
  exists f n, strtod (ws ++ w ++ rest) = Some (f, false, n) /\ whole f z.
Proof.
  intros ws w rest z WS (u & k & U & WU) B R.
  assert (DT : exists dotted : bool, w ++ rest = u ++ (if dotted then "."%char :: repeat "0"%char k else []) ++ rest).
  { destruct WU as [-> | ->]; [exists false; reflexivity|exists true; rewrite <- app_assoc; reflexivity]. }
  destruct DT as (dotted & E). rewrite E. clear E WU.
  inversion U as [ds Hne Hd Q1 Q2|ds Hne Hd Q1 Q2|ds Hne Hd Q1 Q2]; subst; (destruct ds as [|c ds]; [congruence|]) || (destruct u as [|c ds]; [congruence|]).
  - pose proof Hd as Hd0. cbn [forallb] in Hd0. apply andb_true_iff in Hd0. destruct Hd0 as [Hc _]. destruct (ClassifyProofs.digit_props c Hc) as (h1 & h2 & h3 & _).
    assert (DS : drop_space (ws ++ (c :: ds) ++ (if dotted then "."%char :: repeat "0"%char k else []) ++ rest) = (c :: ds) ++ (if dotted then "."%char :: repeat "0"%char k else []) ++ rest).
    { rewrite drop_blanks by exact WS. cbn [app drop_space]. rewrite h1. reflexivity. }
    destruct (strtod_body (ws ++ (c :: ds) ++ (if dotted then "."%char :: repeat "0"%char k else []) ++ rest) 1 0 c ds rest k dotted) as (f & n & H & W).
    + rewrite DS. cbn [app take_sign]. rewrite h2, h3. reflexivity.
    + rewrite DS. reflexivity.
    + exact Hd.
    + lia.
    + exact R.
    + exists f, n. split; [exact H|exact W].
  - destruct (strtod_body (ws ++ ("+"%char :: c :: ds) ++ (if dotted then "."%char :: repeat "0"%char k else []) ++ rest) 1 1 c ds rest k dotted) as (f & n & H & W).
    + rewrite drop_blanks by exact WS. reflexivity.
    + rewrite drop_blanks by exact WS. reflexivity.
    + exact Hd.
    + lia.
    + exact R.
    + exists f, n. split; [exact H|exact W].
  - destruct (strtod_body (ws ++ ("-"%char :: c :: ds) ++ (if dotted then "."%char :: repeat "0"%char k else []) ++ rest) (-1) 1 c ds rest k dotted) as (f & n & H & W).
    + rewrite drop_blanks by exact WS. reflexivity.
    + rewrite drop_blanks by exact WS. reflexivity.
    + exact Hd.
    + lia.
    + exact R.
    + exists f, n. split; [exact H|exact W].
Qed.

(** Arithmetic, comparison and bit operators. *)
Require Import String Ascii List ZArith Bool Lia.
Require Import PArith FMapPositive.
From Verif Require Import Base CppString Num Token Value State Show ScopeOps Builtins Table Eval LispTop
  SpecRun SpecVal SpecNum RunProofs BuiltinProofs.
Import ListNotations.

(** Decides tests of known types. *)
Ltac tys := repeat match goal with |- context [ltype_eqb ?a ?b] =>
    let r := eval vm_compute in (ltype_eqb a b) in change (ltype_eqb a b) with r end; cbn [orb andb].

Lemma in_int_fits : forall z, in_int z = true <-> fits z.
Proof. intro z. unfold in_int, fits, int_min, int_max. rewrite andb_true_iff, !Z.leb_le. lia. Qed.
Lemma int_res_fits : forall z, fits z -> int_res z = Val (vint z).
Proof. intros z H. unfold int_res. apply in_int_fits in H. rewrite H. reflexivity. Qed.
Lemma int_res_not : forall z, ~ fits z -> int_res z = Undef UBOverflow.
Proof. intros z H. unfold int_res. destruct (in_int z) eqn:E; [apply in_int_fits in E; contradiction|reflexivity]. Qed.
Lemma fits_dec : forall z, {fits z} + {~ fits z}.
Proof. intro z. destruct (in_int z) eqn:E; [left; apply in_int_fits; exact E|right; intro H; apply in_int_fits in H; congruence]. Qed.

Lemma var_of_int : forall v z, is_int v z -> forall i, var_of_ptr (P i (OVar v)) = Val v.
Proof. reflexivity. Qed.
Lemma arith_ints : forall op fd fi v w a b st, is_int v a -> is_int w b -> arith op fd fi v w st = fi a b.
Proof.
  intros op fd fi v w a b st Hv Hw. unfold arith. pose proof Hv as [H1 _]. pose proof Hw as [H2 _].
  rewrite !(is_ty_of v _ _ H1), !(is_ty_of w _ _ H2). tys.
  rewrite (to_int_int v a st Hv), (to_int_int w b st Hw). reflexivity.
Qed.
Lemma v_add_ints : forall v w a b st, is_int v a -> is_int w b -> v_add v w st = (int_res (a + b), st).
Proof.
  intros v w a b st Hv Hw. unfold v_add. pose proof Hv as [H1 _]. pose proof Hw as [H2 _].
  rewrite !(is_ty_of v _ _ H1), !(is_ty_of w _ _ H2). tys.
  unfold reads. rewrite (arith_ints _ _ _ v w a b st Hv Hw). reflexivity.
Qed.
Lemma arith_loop_fit : forall (op : variant -> variant -> M variant) f,
  (forall v w a b st, is_int v a -> is_int w b -> op v w st = (int_res (f a b), st)) ->
  forall args zs v z st, int_args args zs -> is_int v z -> all_fit f z zs ->
  exists r, arith_loop op args v st = (Val (Some r), st) /\ is_int r (fold_left f zs z).
Proof.
  intros op f Hop args zs v z st H. revert v z. induction H as [|p y args zs (i & w & -> & Hw) H IH]; intros v z Hv Hf; cbn [arith_loop fold_left].
  - exists v. split; [reflexivity|exact Hv].
  - destruct Hf as [F1 F2]. unfold bind, lift. cbn [var_of_ptr var_of_obj]. rewrite (Hop v w z y st Hv Hw), (int_res_fits _ F1).
    apply IH; [apply vint_is|exact F2].
Qed.
Lemma arith_loop_not : forall (op : variant -> variant -> M variant) f,
  (forall v w a b st, is_int v a -> is_int w b -> op v w st = (int_res (f a b), st)) ->
  forall args zs v z st, int_args args zs -> is_int v z -> ~ all_fit f z zs ->
  arith_loop op args v st = (Undef UBOverflow, st).
Proof.
  intros op f Hop args zs v z st H. revert v z. induction H as [|p y args zs (i & w & -> & Hw) H IH]; intros v z Hv Hf; cbn [arith_loop all_fit] in *.
  - tauto.
  - unfold bind, lift. cbn [var_of_ptr var_of_obj]. rewrite (Hop v w z y st Hv Hw). destruct (fits_dec (f z y)) as [F|F].
    + rewrite (int_res_fits _ F). apply (IH (vint (f z y)) (f z y)); [apply vint_is|tauto].
    + rewrite (int_res_not _ F). reflexivity.
Qed.
Lemma v_sub_ints : forall v w a b st, is_int v a -> is_int w b -> reads (v_sub v w) st = (int_res (a - b), st).
Proof. intros v w a b st Hv Hw. unfold reads, v_sub. rewrite (arith_ints _ _ _ v w a b st Hv Hw). reflexivity. Qed.
Lemma v_mul_ints : forall v w a b st, is_int v a -> is_int w b -> reads (v_mul v w) st = (int_res (a * b), st).
Proof. intros v w a b st Hv Hw. unfold reads, v_mul. rewrite (arith_ints _ _ _ v w a b st Hv Hw). reflexivity. Qed.

(** The operators as calls of [arith_operation]. *)
Lemma operation_code : forall name f, operation name f ->
  exists b op, builtin_code name = Some b /\
    (forall v w a b st, is_int v a -> is_int w b -> op v w st = (int_res (f a b), st)) /\
    forall R p q args s, call_builtin R b (p :: q :: args) s = arith_operation op (p :: q :: args).
Proof.
  intros name f [[-> ->]|[[-> ->]|[-> ->]]].
  - exists BAdd, v_add. split; [vm_compute; reflexivity|]. split; [intros; apply v_add_ints; assumption|reflexivity].
  - exists BSub, (fun l r => reads (v_sub l r)). split; [vm_compute; reflexivity|]. split; [intros; apply v_sub_ints; assumption|reflexivity].
  - exists BMul, (fun l r => reads (v_mul l r)). split; [vm_compute; reflexivity|]. split; [intros; apply v_mul_ints; assumption|reflexivity].
Qed.

Lemma operation_exact : forall name f args z zs s st, operation name f -> int_args args (z :: zs) -> zs <> [] -> all_fit f z zs ->
  builtin_pure name args s st (fun r => is_int r (fold_left f zs z)).
Proof.
  intros name f args z zs s st Ho Ha N F. destruct (operation_code name f Ho) as (b & op & C & Hop & E).
  inversion Ha as [|p ? args1 ? (i & v & -> & Hv) Hr]; subst. destruct zs as [|y zs]; [congruence|].
  inversion Hr as [|q ? args2 ? (j & w & -> & Hw) Hr2]; subst.
  destruct (arith_loop_fit op f Hop (P j (OVar w) :: args2) (y :: zs) v z st Hr Hv F) as (r & L & R).
  exists r. split; [|exact R]. apply (builtin_calls 0 name b); [exact C| |discriminate]. rewrite E. exact L.
Qed.
Lemma operation_overflow : forall name f args z zs s st, operation name f -> int_args args (z :: zs) -> ~ all_fit f z zs ->
  builtin_call name args s st (Undef UBOverflow) st.
Proof.
  intros name f args z zs s st Ho Ha F. destruct (operation_code name f Ho) as (b & op & C & Hop & E).
  inversion Ha as [|p ? args1 ? (i & v & -> & Hv) Hr]; subst. destruct zs as [|y zs]; [cbn in F; tauto|].
  inversion Hr as [|q ? args2 ? (j & w & -> & Hw) Hr2]; subst.
  apply (builtin_calls 0 name b); [exact C| |discriminate]. rewrite E. exact (arith_loop_not op f Hop _ _ v z st Hr Hv F).
Qed.
Lemma negate_exact : forall v z i s st, is_int v z -> fits (- z) -> builtin_pure $"-" [P i (OVar v)] s st (fun r => is_int r (- z)).
Proof.
  intros v z i s st H F. apply (pure_intro _ BSub _ _ _ (vint (- z))); [vm_compute; reflexivity| |apply vint_is].
  cbn [call_builtin]. unfold b_sub, bind, lift. cbn [var_of_ptr var_of_obj]. pose proof H as [T _]. rewrite !(is_ty_of v _ _ T). tys.
  unfold reads. rewrite (int_value_int v z st H), (int_res_fits _ F). reflexivity.
Qed.
Lemma negate_overflow : forall v z i s st, is_int v z -> ~ fits (- z) -> builtin_call $"-" [P i (OVar v)] s st (Undef UBOverflow) st.
Proof.
  intros v z i s st H F. apply (builtin_calls 0 _ BSub); [vm_compute; reflexivity| |discriminate].
  cbn [call_builtin]. unfold b_sub, bind, lift. cbn [var_of_ptr var_of_obj]. pose proof H as [T _]. rewrite !(is_ty_of v _ _ T). tys.
  unfold reads. rewrite (int_value_int v z st H), (int_res_not _ F). reflexivity.
Qed.
Lemma single_operand : forall name v z i s st, (name = $"+" \/ name = $"*") -> is_int v z ->
  builtin_pure name [P i (OVar v)] s st (fun r => is_int r z).
Proof.
  intros name v z i s st [-> | ->] H.
  - apply (pure_intro _ BAdd _ _ _ v); [vm_compute; reflexivity|reflexivity|exact H].
  - apply (pure_intro _ BMul _ _ _ v); [vm_compute; reflexivity|reflexivity|exact H].
Qed.

(** ** Division *)
Lemma quot_divides : forall a b, b <> 0%Z -> divides_to a b (Z.quot a b) (Z.rem a b).
Proof.
  intros a b H. split; [apply Z.quot_rem; exact H|]. split; [apply Z.rem_bound_abs; exact H|].
  pose proof (Z.rem_sign_mul a b H). lia.
Qed.
Lemma divides_unique : forall a b q r q' r', b <> 0%Z -> divides_to a b q r -> divides_to a b q' r' -> q = q' /\ r = r'.
Proof.
  intros a b q r q' r' H (E & B & S) (E' & B' & S').
  assert (q = q'); [|subst; split; [reflexivity|lia]].
  assert (D : (b * (q - q') = r' - r)%Z) by lia.
  destruct (Z.eq_dec q q') as [|N]; [assumption|exfalso].
  assert (A : (Z.abs b <= Z.abs (r' - r))%Z). { rewrite <- D, Z.abs_mul. nia. }
  destruct (Z.lt_trichotomy a 0) as [L|[L|L]]; [assert (r <= 0 /\ r' <= 0)%Z by nia; lia| |assert (0 <= r /\ 0 <= r')%Z by nia; lia].
  rewrite L in E, E'. assert (Z0 : forall x y, (0 = b * x + y)%Z -> (Z.abs y < Z.abs b)%Z -> x = 0%Z).
  { intros x y Ex Bx. assert (Ey : y = (- (b * x))%Z) by lia. rewrite Ey, Z.abs_opp, Z.abs_mul in Bx.
    destruct (Z.eq_dec x 0) as [|Nx]; [assumption|]. assert (1 <= Z.abs x)%Z by lia. assert (0 <= Z.abs b)%Z by lia. clear - Bx H0 H1. exfalso. nia. }
  rewrite (Z0 q r E B), (Z0 q' r' E' B') in N. congruence.
Qed.
Lemma div_ok : forall v w a b q r, is_int v a -> is_int w b -> b <> 0%Z -> fits a -> ~ (a = -2147483648 /\ b = -1)%Z -> divides_to a b q r ->
  gives $"/" v w q /\ gives $"%" v w r /\ fits q /\ fits r.
Proof.
  intros v w a b q r Hv Hw B F X D. destruct (divides_unique a b q r (Z.quot a b) (Z.rem a b) B D (quot_divides a b B)) as [-> ->].
  assert (C : ((b =? 0)%Z || ((a =? int_min) && (b =? -1))%Z) = false).
  { apply orb_false_iff. split; [apply Z.eqb_neq; exact B|]. apply andb_false_iff. unfold int_min.
    destruct (Z.eqb_spec a (-2147483648)); [|left; reflexivity]. right. apply Z.eqb_neq. tauto. }
  repeat match goal with |- _ /\ _ => split end.
  - intros i j s st. apply (pure_intro _ BDiv _ _ _ (vint (Z.quot a b))); [vm_compute; reflexivity| |apply vint_is].
    cbn [call_builtin]. unfold b_div, arith_operation, arith_loop, bind, lift, reads. cbn [var_of_ptr var_of_obj].
    unfold v_div. rewrite (arith_ints _ _ _ v w a b st Hv Hw). unfold int_div. rewrite C. reflexivity.
  - intros i j s st. apply (pure_intro _ BMod _ _ _ (vint (Z.rem a b))); [vm_compute; reflexivity| |apply vint_is].
    cbn [call_builtin]. unfold b_mod, arith_operation, arith_loop, bind, lift, reads. cbn [var_of_ptr var_of_obj].
    unfold v_mod. rewrite (arith_ints _ _ _ v w a b st Hv Hw). unfold int_mod. rewrite C. reflexivity.
  - destruct D as (E & R & S). unfold fits in *. assert (Z.abs (Z.quot a b) <= Z.abs a)%Z by (rewrite <- Z.quot_abs by assumption; rewrite Z.quot_div_nonneg by lia; apply Z.div_le_upper_bound; nia).
    destruct (Z.eq_dec (Z.quot a b) 2147483648) as [Q|Q]; [|lia]. exfalso. apply X. rewrite Q in E. nia.
  - destruct D as (E & R & S). unfold fits in *. assert (Z.abs (Z.rem a b) <= Z.abs a)%Z by (rewrite <- Z.rem_abs by assumption; apply Z.rem_le; lia).
    lia.
Qed.
Lemma div_undefined : forall v w a b, is_int v a -> is_int w b -> (b = 0 \/ (a = -2147483648 /\ b = -1))%Z ->
  gives_undef $"/" v w UBDivZero /\ gives_undef $"%" v w UBDivZero.
Proof.
  intros v w a b Hv Hw X.
  assert (C : ((b =? 0)%Z || ((a =? int_min) && (b =? -1))%Z) = true).
  { apply orb_true_iff. destruct X as [-> | [-> ->]]; [left; reflexivity|right; reflexivity]. }
  split; intros i j s st.
  - apply (builtin_calls 0 _ BDiv); [vm_compute; reflexivity| |discriminate].
    cbn [call_builtin]. unfold b_div, arith_operation, arith_loop, bind, lift, reads. cbn [var_of_ptr var_of_obj].
    unfold v_div. rewrite (arith_ints _ _ _ v w a b st Hv Hw). unfold int_div. rewrite C. reflexivity.
  - apply (builtin_calls 0 _ BMod); [vm_compute; reflexivity| |discriminate].
    cbn [call_builtin]. unfold b_mod, arith_operation, arith_loop, bind, lift, reads. cbn [var_of_ptr var_of_obj].
    unfold v_mod. rewrite (arith_ints _ _ _ v w a b st Hv Hw). unfold int_mod. rewrite C. reflexivity.
Qed.

(** ** Comparisons *)
Lemma cmp_calls : forall name b nm f v w r, builtin_code name = Some b ->
  (forall R args s, call_builtin R b args s = cmp_fun nm f args s) -> (forall st, f v w st = Val r) ->
  forall i j s st, builtin_pure name [P i (OVar v); P j (OVar w)] s st (fun x => is_bool x r).
Proof.
  intros name b nm f v w r C E H i j s st. apply (pure_intro _ b _ _ _ (vbool r)); [exact C| |apply vbool_is].
  rewrite E. unfold cmp_fun, wrap2. unfold check_args. cbn [length]. change (2 =? 2)%nat with true.
  unfold bind, ret, argv, arg, lift, reads. cbn [nth_error negb]. unfold bind, ret, lift, vref, vref_obj. rewrite H. reflexivity.
Qed.
Lemma cmp_ints : forall op fd fi fs v w a b st, is_int v a -> is_int w b -> compare_op op fd fi fs v w st = Val (fi a b).
Proof.
  intros op fd fi fs v w a b st Hv Hw. unfold compare_op. pose proof Hv as [H1 _]. pose proof Hw as [H2 _].
  rewrite !(is_ty_of v _ _ H1), !(is_ty_of w _ _ H2). tys.
  rewrite (to_int_int v a st Hv), (to_int_int w b st Hw). reflexivity.
Qed.
Lemma cmp_strs : forall op fd fi fs v w a b st, is_str v a -> is_str w b -> compare_op op fd fi fs v w st = Val (fs (CompareOrdinal a b)).
Proof.
  intros op fd fi fs v w a b st Hv Hw. unfold compare_op. pose proof Hv as [H1 _]. pose proof Hw as [H2 _].
  rewrite !(is_ty_of v _ _ H1), !(is_ty_of w _ _ H2). tys.
  rewrite (var_str_str v a st Hv), (var_str_str w b st Hw). reflexivity.
Qed.
Lemma order_ints : forall v w a b, is_int v a -> is_int w b ->
  decides $"<" v w (a < b)%Z /\ decides $"<=" v w (a <= b)%Z /\ decides $">" v w (b < a)%Z /\ decides $">=" v w (b <= a)%Z.
Proof.
  intros v w a b Hv Hw. repeat match goal with |- _ /\ _ => split end; intros i j s st; eexists.
  - split; [|apply (cmp_calls _ BLt $"<" v_lt); [vm_compute; reflexivity|reflexivity|intro; apply (cmp_ints _ _ _ _ v w a b _ Hv Hw)]]. apply Z.ltb_lt.
  - split; [|apply (cmp_calls _ BLe $"<=" v_le); [vm_compute; reflexivity|reflexivity|intro; apply (cmp_ints _ _ _ _ v w a b _ Hv Hw)]]. apply Z.leb_le.
  - split; [|apply (cmp_calls _ BGt $">" (fun l r => v_lt r l)); [vm_compute; reflexivity|reflexivity|intro; apply (cmp_ints _ _ _ _ w v b a _ Hw Hv)]]. apply Z.ltb_lt.
  - split; [|apply (cmp_calls _ BGe $">=" (fun l r => v_le r l)); [vm_compute; reflexivity|reflexivity|intro; apply (cmp_ints _ _ _ _ w v b a _ Hw Hv)]]. apply Z.leb_le.
Qed.
Lemma str_cmp_lt : forall a b, str_cmp a b = Lt <-> lex_lt a b.
Proof.
  induction a as [|x a IH]; intros [|y b]; cbn [str_cmp].
  - split; [discriminate|intro H; inversion H].
  - split; [constructor|reflexivity].
  - split; [discriminate|intro H; inversion H].
  - destruct (Nat.compare_spec (nat_of_ascii x) (nat_of_ascii y)) as [E|L|G].
    + assert (x = y) by (rewrite <- (ascii_nat_embedding x), <- (ascii_nat_embedding y), E; reflexivity). subst y. rewrite IH.
      split; [intro; apply lx_later; assumption|]. intro H. inversion H; subst; [lia|assumption].
    + split; [intros _; apply lx_here; exact L|reflexivity].
    + split; [discriminate|]. intro H. inversion H; subst; lia.
Qed.
Lemma str_cmp_eq : forall a b, str_cmp a b = Eq <-> a = b.
Proof.
  induction a as [|x a IH]; intros [|y b]; cbn [str_cmp]; try (split; [discriminate || reflexivity|discriminate || reflexivity]).
  destruct (Nat.compare_spec (nat_of_ascii x) (nat_of_ascii y)) as [E|L|G].
  - assert (x = y) by (rewrite <- (ascii_nat_embedding x), <- (ascii_nat_embedding y), E; reflexivity). subst y. rewrite IH.
    split; [intros ->; reflexivity|intros [= ->]; reflexivity].
  - split; [discriminate|]. intros [= -> _]. lia.
  - split; [discriminate|]. intros [= -> _]. lia.
Qed.
Lemma cstr_id : forall a, ~ In c_nul a -> cstr a = a.
Proof.
  induction a as [|c a IH]; intro H; [reflexivity|]. cbn [cstr]. destruct (Ascii.eqb_spec c c_nul) as [->|N].
  - exfalso. apply H. left. reflexivity.
  - rewrite IH; [reflexivity|]. intro I. apply H. right. exact I.
Qed.
Lemma str_cmp_swap : forall a b, str_cmp b a = CompOpp (str_cmp a b).
Proof.
  induction a as [|x a IH]; intros [|y b]; cbn [str_cmp]; try reflexivity. rewrite Nat.compare_antisym.
  destruct (Nat.compare (nat_of_ascii x) (nat_of_ascii y)); cbn [CompOpp]; [apply IH|reflexivity|reflexivity].
Qed.
Lemma order_strs : forall v w a b, is_str v a -> is_str w b -> ~ In c_nul a -> ~ In c_nul b ->
  decides $"<" v w (lex_lt a b) /\ decides $"<=" v w (lex_lt a b \/ a = b) /\
  decides $">" v w (lex_lt b a) /\ decides $">=" v w (lex_lt b a \/ a = b).
Proof.
  intros v w a b Hv Hw Na Nb.
  assert (CE : CompareOrdinal a b = str_cmp a b) by (unfold CompareOrdinal; rewrite !cstr_id by assumption; reflexivity).
  assert (CE' : CompareOrdinal b a = str_cmp b a) by (unfold CompareOrdinal; rewrite !cstr_id by assumption; reflexivity).
  pose proof (str_cmp_lt a b) as L1. pose proof (str_cmp_lt b a) as L2. pose proof (str_cmp_eq a b) as L3. pose proof (str_cmp_swap a b) as L4.
  repeat match goal with |- _ /\ _ => split end; intros i j s st; eexists.
  - split; [|apply (cmp_calls _ BLt $"<" v_lt); [vm_compute; reflexivity|reflexivity|intro; apply (cmp_strs _ _ _ _ v w a b _ Hv Hw)]].
    rewrite CE, <- L1. destruct (str_cmp a b); split; congruence.
  - split; [|apply (cmp_calls _ BLe $"<=" v_le); [vm_compute; reflexivity|reflexivity|intro; apply (cmp_strs _ _ _ _ v w a b _ Hv Hw)]].
    rewrite CE, <- L1, <- L3. destruct (str_cmp a b); split; intuition congruence.
  - split; [|apply (cmp_calls _ BGt $">" (fun l r => v_lt r l)); [vm_compute; reflexivity|reflexivity|intro; apply (cmp_strs _ _ _ _ w v b a _ Hw Hv)]].
    rewrite CE', <- L2. destruct (str_cmp b a); split; congruence.
  - split; [|apply (cmp_calls _ BGe $">=" (fun l r => v_le r l)); [vm_compute; reflexivity|reflexivity|intro; apply (cmp_strs _ _ _ _ w v b a _ Hw Hv)]].
    rewrite CE', <- L2, <- L3. rewrite L4. destruct (str_cmp a b); cbn [CompOpp]; split; intuition congruence.
Qed.
(** The order of texts is a strict total order. *)
Lemma lex_irrefl : forall a, ~ lex_lt a a.
Proof. intro a. rewrite <- str_cmp_lt. assert (E : str_cmp a a = Eq) by (apply str_cmp_eq; reflexivity). congruence. Qed.
Lemma lex_trans : forall a b c, lex_lt a b -> lex_lt b c -> lex_lt a c.
Proof.
  intros a b c H. revert c. induction H as [x b|x y a b L|x a b H IH]; intros c K; inversion K; subst.
  - constructor. - constructor. - apply lx_here. lia. - apply lx_here. exact L. - apply lx_here. assumption. - apply lx_later. apply IH. assumption.
Qed.
Lemma lex_total : forall a b, lex_lt a b \/ a = b \/ lex_lt b a.
Proof.
  intros a b. rewrite <- (str_cmp_lt a b), <- (str_cmp_lt b a), <- (str_cmp_eq a b), (str_cmp_swap a b).
  destruct (str_cmp a b); cbn; tauto.
Qed.

(** ** Equality *)
Lemma eq_calls : forall v w b, (forall st, equal_op v w st = Val b) ->
  forall i j s st, builtin_pure $"==" [P i (OVar v); P j (OVar w)] s st (fun x => is_bool x b) /\
                   builtin_pure $"!=" [P i (OVar v); P j (OVar w)] s st (fun x => is_bool x (negb b)).
Proof.
  intros v w b H i j s st. split.
  - apply (cmp_calls _ BEq $"==" equal_op); [vm_compute; reflexivity|reflexivity|exact H].
  - apply (cmp_calls _ BNe $"!=" (fun l r st => let? b := equal_op l r st in Val (negb b))); [vm_compute; reflexivity|reflexivity|].
    intro st'. rewrite H. reflexivity.
Qed.
Lemma eq_decides : forall v w b Q, (forall st, equal_op v w st = Val b) -> (b = true <-> Q) -> decides $"==" v w Q /\ decides $"!=" v w (~ Q).
Proof.
  intros v w b Q H K. split; intros i j s st; destruct (eq_calls v w b H i j s st) as [H1 H2].
  - exists b. split; assumption.
  - exists (negb b). split; [|assumption]. rewrite <- K. destruct b; cbn; intuition discriminate.
Qed.
Lemma str_eqb_iff : forall a b, str_eqb a b = true <-> a = b.
Proof. exact str_eqb_eq. Qed.
Lemma equal_ints : forall v w a b, is_int v a -> is_int w b -> decides $"==" v w (a = b) /\ decides $"!=" v w (a <> b).
Proof.
  intros v w a b Hv Hw. apply (eq_decides v w (a =? b)%Z); [|apply Z.eqb_eq]. intro st.
  unfold equal_op. pose proof Hv as [H1 _]. pose proof Hw as [H2 _].
  rewrite !(is_ty_of v _ _ H1), !(is_ty_of w _ _ H2), !(is_list_of v _ H1), !(is_list_of w _ H2). tys.
  rewrite (to_int_int v a st Hv), (to_int_int w b st Hw). reflexivity.
Qed.
Lemma equal_bools : forall v w a b, is_bool v a -> is_bool w b -> decides $"==" v w (a = b) /\ decides $"!=" v w (a <> b).
Proof.
  intros v w a b Hv Hw. apply (eq_decides v w (Bool.eqb a b)); [|apply eqb_true_iff]. intro st.
  unfold equal_op. pose proof Hv as [H1 _]. pose proof Hw as [H2 _].
  rewrite !(is_ty_of v _ _ H1), !(is_ty_of w _ _ H2). tys.
  rewrite (bool_value_bool v a st Hv), (bool_value_bool w b st Hw). reflexivity.
Qed.
Lemma equal_strs : forall v w a b, is_str v a -> is_str w b -> decides $"==" v w (a = b) /\ decides $"!=" v w (a <> b).
Proof.
  intros v w a b Hv Hw. apply (eq_decides v w (str_eqb a b)); [|apply str_eqb_iff]. intro st.
  unfold equal_op. pose proof Hv as [H1 _]. pose proof Hw as [H2 _].
  rewrite !(is_ty_of v _ _ H1), !(is_ty_of w _ _ H2), !(is_list_of v _ H1), !(is_list_of w _ H2). tys.
  rewrite (var_str_str v a st Hv), (var_str_str w b st Hw). reflexivity.
Qed.
Lemma equal_syms : forall v w a b, is_sym v a -> is_sym w b -> decides $"==" v w (a = b) /\ decides $"!=" v w (a <> b).
Proof.
  intros v w a b Hv Hw. apply (eq_decides v w (str_eqb a b)); [|apply str_eqb_iff]. intro st.
  unfold equal_op. pose proof Hv as [H1 _]. pose proof Hw as [H2 _].
  rewrite !(is_ty_of v _ _ H1), !(is_ty_of w _ _ H2). tys.
  rewrite (var_str_sym v a st Hv), (var_str_sym w b st Hw). reflexivity.
Qed.
(** Lists of integers. *)
Lemma seq_eq_ints : forall ps qs xs ys st, int_args ps xs -> int_args qs ys -> length xs = length ys ->
  exists b, seq_eq ps qs st = Val b /\ (b = true <-> xs = ys).
Proof.
  intros ps qs xs ys st H. revert qs ys. induction H as [|p x ps xs (i & v & -> & Hv) H IH]; intros qs ys K L.
  - destruct ys; [|discriminate]. inversion K. exists true. split; [reflexivity|tauto].
  - destruct ys as [|y ys]; [discriminate|]. inversion K as [|q ? qs' ? (j & w & -> & Hw) K']; subst. cbn [seq_eq deref obind obj_eqb].
    destruct Hv as [_ E1], Hw as [_ E2]. rewrite E1, E2. cbn [obj_eq_simple obind]. injection L as L.
    destruct (Z.eqb_spec x y) as [->|N].
    + destruct (IH qs' ys K' L) as (b & E & B). exists b. split; [exact E|]. rewrite B. split; [intros ->; reflexivity|intros [= ->]; reflexivity].
    + exists false. split; [reflexivity|]. split; [discriminate|]. intros [= -> _]. congruence.
Qed.
Lemma Forall2_len : forall A B (R : A -> B -> Prop) xs ys, Forall2 R xs ys -> length xs = length ys.
Proof. intros A B R xs ys H. induction H; cbn; congruence. Qed.
Lemma equal_int_lists : forall st v w l m ps qs xs ys i j s, is_list_at st v l ps -> is_list_at st w m qs -> int_args ps xs -> int_args qs ys ->
  exists b, (b = true <-> xs = ys) /\ builtin_pure $"==" [P i (OVar v); P j (OVar w)] s st (fun r => is_bool r b).
Proof.
  intros st v w l m ps qs xs ys i j s Hv Hw Hx Hy.
  assert (E : exists b, equal_op v w st = Val b /\ (b = true <-> xs = ys)).
  { unfold equal_op. pose proof Hv as (H1 & _). pose proof Hw as (H2 & _).
    rewrite !(is_ty_of v _ _ H1), !(is_ty_of w _ _ H2), !(is_list_of v _ H1), !(is_list_of w _ H2). tys.
    rewrite (list_value_list st v l ps Hv), (list_value_list st w m qs Hw). cbn [obind]. unfold sequence_equal.
    pose proof (Forall2_len _ _ _ _ _ Hx). pose proof (Forall2_len _ _ _ _ _ Hy).
    destruct (Nat.eqb_spec (length ps) (length qs)) as [L|L].
    - destruct (seq_eq_ints ps qs xs ys st Hx Hy ltac:(congruence)) as (b & E & B). exists b. auto.
    - exists false. split; [reflexivity|]. split; [discriminate|]. intros ->. congruence. }
  destruct E as (b & E & B). exists b. split; [exact B|].
  apply (pure_intro _ BEq _ _ _ (vbool b)); [vm_compute; reflexivity| |apply vbool_is].
  cbn [call_builtin]. unfold b_eq, cmp_fun, wrap2, check_args. cbn [length]. change (2 =? 2)%nat with true.
  unfold bind, ret, argv, arg, lift, reads. cbn [nth_error negb]. unfold bind, ret, lift, vref, vref_obj. rewrite E. reflexivity.
Qed.

(** Failures of equality. *)
Lemma equality_mixed : decides $"==" (vstr $"1") (vint 1) True /\ decides $"==" (vint 1) (vbool true) True /\ decides $"==" (vstr $"1") (vbool true) False.
Proof.
  split; [|split].
  - intros i j s st. exists true. split; [tauto|]. apply (eq_calls _ _ true). reflexivity.
  - intros i j s st. exists true. split; [tauto|]. apply (eq_calls _ _ true). reflexivity.
  - intros i j s st. exists false. split; [split; [discriminate|tauto]|]. apply (eq_calls _ _ false). reflexivity.
Qed.
Definition zero_dbl : variant := vdouble (f_of_z 0).
Definition nano (n : positive) : variant := vdouble (f_of_frac false n 1000000000).
Lemma equality_tolerance : decides $"==" zero_dbl (nano 6) True /\ decides $"==" (nano 6) (nano 12) True /\ decides $"==" zero_dbl (nano 12) False.
Proof.
  split; [|split].
  - intros i j s st. exists true. split; [tauto|]. apply (eq_calls _ _ true). intro. vm_compute. reflexivity.
  - intros i j s st. exists true. split; [tauto|]. apply (eq_calls _ _ true). intro. vm_compute. reflexivity.
  - intros i j s st. exists false. split; [split; [discriminate|tauto]|]. apply (eq_calls _ _ false). intro. vm_compute. reflexivity.
Qed.

(** ** Bits *)
Lemma int_op_calls : forall name b nm f v w x y r, builtin_code name = Some b ->
  (forall R args s, call_builtin R b args s = wrap2 nm (int_op f) args s) -> is_int v x -> is_int w y -> f x y = Val r -> gives name v w r.
Proof.
  intros name b nm f v w x y r C E Hv Hw H i j s st. apply (pure_intro _ b _ _ _ (vint r)); [exact C| |apply vint_is].
  rewrite E. unfold wrap2, check_args. cbn [length]. change (2 =? 2)%nat with true.
  unfold bind, ret, argv, arg, lift, reads. cbn [nth_error negb]. unfold int_op, bind, ret, lift, reads, vref, vref_obj.
  rewrite (int_value_int v x st Hv), (int_value_int w y st Hw), H. reflexivity.
Qed.
Lemma int_op_undef : forall name b nm f v w x y u, builtin_code name = Some b ->
  (forall R args s, call_builtin R b args s = wrap2 nm (int_op f) args s) -> is_int v x -> is_int w y -> f x y = Undef u -> gives_undef name v w u.
Proof.
  intros name b nm f v w x y u C E Hv Hw H i j s st. apply (builtin_calls 0 _ b); [exact C| |discriminate].
  rewrite E. unfold wrap2, check_args. cbn [length]. change (2 =? 2)%nat with true.
  unfold bind, ret, argv, arg, lift, reads. cbn [nth_error negb]. unfold int_op, bind, ret, lift, reads, vref, vref_obj.
  rewrite (int_value_int v x st Hv), (int_value_int w y st Hw), H. reflexivity.
Qed.
(** Being in the 32-bit range means: shifting the low 31 bits out leaves only the sign. *)
Lemma fits_shift : forall z, fits z <-> (Z.shiftr z 31 = 0 \/ Z.shiftr z 31 = -1)%Z.
Proof.
  intro z. rewrite Z.shiftr_div_pow2 by lia. change (2 ^ 31)%Z with 2147483648%Z. unfold fits.
  pose proof (Z.div_mod z 2147483648 ltac:(lia)). pose proof (Z.mod_pos_bound z 2147483648 ltac:(lia)). split; intro; nia.
Qed.
Lemma bit_ops : forall v w a b, is_int v a -> is_int w b -> fits a -> fits b ->
  (exists z, gives $"|" v w z /\ fits z /\ forall n, Z.testbit z n = (Z.testbit a n || Z.testbit b n)%bool) /\
  (exists z, gives $"&" v w z /\ fits z /\ forall n, Z.testbit z n = (Z.testbit a n && Z.testbit b n)%bool) /\
  (exists z, gives $"^" v w z /\ fits z /\ forall n, Z.testbit z n = xorb (Z.testbit a n) (Z.testbit b n)).
Proof.
  intros v w a b Hv Hw Fa Fb. apply fits_shift in Fa. apply fits_shift in Fb. split; [|split].
  - exists (Z.lor a b). split; [|split; [|intro; apply Z.lor_spec]].
    + apply (int_op_calls _ BBitOr $"lef-shift" (fun a b => Val (Z.lor a b)) v w a b); [vm_compute; reflexivity|reflexivity|exact Hv|exact Hw|reflexivity].
    + apply fits_shift. rewrite Z.shiftr_lor. destruct Fa as [-> | ->], Fb as [-> | ->]; cbn; auto.
  - exists (Z.land a b). split; [|split; [|intro; apply Z.land_spec]].
    + apply (int_op_calls _ BBitAnd $"lef-shift" (fun a b => Val (Z.land a b)) v w a b); [vm_compute; reflexivity|reflexivity|exact Hv|exact Hw|reflexivity].
    + apply fits_shift. rewrite Z.shiftr_land. destruct Fa as [-> | ->], Fb as [-> | ->]; cbn; auto.
  - exists (Z.lxor a b). split; [|split; [|intro; apply Z.lxor_spec]].
    + apply (int_op_calls _ BBitXor $"lef-shift" (fun a b => Val (Z.lxor a b)) v w a b); [vm_compute; reflexivity|reflexivity|exact Hv|exact Hw|reflexivity].
    + apply fits_shift. rewrite Z.shiftr_lxor. destruct Fa as [-> | ->], Fb as [-> | ->]; cbn; auto.
Qed.
Lemma bit_not : forall v a i s st, is_int v a -> fits a ->
  builtin_pure $"~" [P i (OVar v)] s st (fun r => is_int r (- a - 1)) /\ fits (- a - 1).
Proof.
  intros v a i s st H F. split; [|unfold fits in *; lia].
  apply (pure_intro _ BBitNot _ _ _ (vint (Z.lnot a))); [vm_compute; reflexivity| |].
  - cbn [call_builtin]. unfold b_bitnot, wrap1, check_args. cbn [length]. change (1 =? 1)%nat with true.
    unfold bind, ret, argv, arg, lift, reads. cbn [nth_error negb]. unfold bind, ret, lift, vref, vref_obj.
    rewrite (int_value_int v a st H). reflexivity.
  - replace (- a - 1)%Z with (Z.lnot a) by (unfold Z.lnot; lia). apply vint_is.
Qed.
Lemma shift_left : forall v w a k, is_int v a -> is_int w k -> (0 <= k <= 31)%Z -> (0 <= a)%Z -> fits (a * 2 ^ k) -> gives $"<<" v w (a * 2 ^ k).
Proof.
  intros v w a k Hv Hw K A F. apply (int_op_calls _ BShl $"lef-shift" shl v w a k); [vm_compute; reflexivity|reflexivity|exact Hv|exact Hw|].
  unfold shl. rewrite Z.shiftl_mul_pow2 by lia. apply in_int_fits in F. rewrite F.
  replace ((k <? 0)%Z || (31 <? k)%Z || (a <? 0)%Z) with false; [reflexivity|].
  symmetry. rewrite !orb_false_iff, !Z.ltb_ge. lia.
Qed.
Lemma shift_left_undef : forall v w a k, is_int v a -> is_int w k -> ~ ((0 <= k <= 31)%Z /\ (0 <= a)%Z /\ fits (a * 2 ^ k)) ->
  gives_undef $"<<" v w UBOverflow.
Proof.
  intros v w a k Hv Hw N. apply (int_op_undef _ BShl $"lef-shift" shl v w a k); [vm_compute; reflexivity|reflexivity|exact Hv|exact Hw|].
  unfold shl. destruct ((k <? 0)%Z || (31 <? k)%Z || (a <? 0)%Z) eqn:E; [reflexivity|].
  rewrite !orb_false_iff, !Z.ltb_ge in E. rewrite Z.shiftl_mul_pow2 by lia. destruct (in_int (a * 2 ^ k)) eqn:F; [|reflexivity].
  apply in_int_fits in F. exfalso. apply N. split; [lia|]. split; [lia|exact F].
Qed.
Lemma shift_right : forall v w a k, is_int v a -> is_int w k -> (0 <= k <= 31)%Z -> fits a -> gives $">>" v w (a / 2 ^ k)%Z /\ fits (a / 2 ^ k).
Proof.
  intros v w a k Hv Hw K F. split.
  - apply (int_op_calls _ BShr $"right-shift" shr v w a k); [vm_compute; reflexivity|reflexivity|exact Hv|exact Hw|].
    unfold shr. rewrite Z.shiftr_div_pow2 by lia.
    replace ((k <? 0)%Z || (31 <? k)%Z) with false; [reflexivity|].
    symmetry. rewrite !orb_false_iff, !Z.ltb_ge. lia.
  - unfold fits in *. assert (P : (0 < 2 ^ k)%Z) by (apply Z.pow_pos_nonneg; lia).
    pose proof (Z.div_mod a (2 ^ k) ltac:(lia)). pose proof (Z.mod_pos_bound a (2 ^ k) P). nia.
Qed.
Lemma shift_right_undef : forall v w a k, is_int v a -> is_int w k -> ~ (0 <= k <= 31)%Z -> gives_undef $">>" v w UBOverflow.
Proof.
  intros v w a k Hv Hw N. apply (int_op_undef _ BShr $"right-shift" shr v w a k); [vm_compute; reflexivity|reflexivity|exact Hv|exact Hw|].
  unfold shr. destruct ((k <? 0)%Z || (31 <? k)%Z) eqn:E; [reflexivity|].
  rewrite !orb_false_iff, !Z.ltb_ge in E. lia.
Qed.

Lemma equality_nested : exists st v1 st1 v2 st2,
  builtin_call $"==" [P 1 (OVar (mkv TList (OList 2%positive))); P 2 (OVar (mkv TList (OList 4%positive)))] main_sid st (Val (Some v1)) st1 /\ is_bool v1 false /\
  builtin_call $"==" [P 1 (OVar (mkv TList (OList 1%positive))); P 2 (OVar (mkv TList (OList 3%positive)))] main_sid st (Val (Some v2)) st2 /\ is_bool v2 true /\
  vec_at st 1%positive = Some [P 1 (OVar (vint 7))] /\ vec_at st 2%positive = Some [P 2 (OVar (mkv TList (OList 1%positive)))] /\
  vec_at st 3%positive = Some [P 3 (OVar (vint 7))] /\ vec_at st 4%positive = Some [P 4 (OVar (mkv TList (OList 3%positive)))].
Proof.
  exists (State (fold_right (fun kv m => PositiveMap.add (fst kv) (snd kv) m) (PositiveMap.empty _)
     [(1%positive, [P 1 (OVar (vint 7))]); (2%positive, [P 2 (OVar (mkv TList (OList 1%positive)))]);
      (3%positive, [P 3 (OVar (vint 7))]); (4%positive, [P 4 (OVar (mkv TList (OList 3%positive)))])])
     (PositiveMap.empty _) (PositiveMap.empty _) 5 5 5 [] [] [] (Env (fun _ => true) None []) (Dbg [] true StopAlways [])).
  eexists. eexists. eexists. eexists. repeat match goal with |- _ /\ _ => split end; try reflexivity; try (split; reflexivity).
  - apply (builtin_calls 0 _ BEq); [vm_compute; reflexivity|vm_compute; reflexivity|discriminate].
  - split; reflexivity.
  - apply (builtin_calls 0 _ BEq); [vm_compute; reflexivity|vm_compute; reflexivity|discriminate].
  - split; reflexivity.
Qed.

(** Proofs about operands of mixed kinds. *)
Require Import String Ascii List ZArith Bool Lia.
Require Import PArith FMapPositive.
From Verif Require Import Base CppString Num Token Value State Show ScopeOps Builtins Table Eval LispTop SpecLex SpecRun SpecVal SpecNum SpecList SpecForm SpecIo SpecMix.
From Verif Require Import ClassifyProofs TextProofs BuiltinProofs ListProofs NumProofs IoProofs.
From Verif Require MacroProofs.
Import ListNotations.
Local Open Scope Z_scope.

(** ** The integer at the beginning of a text *)
Lemma cstr_front : forall a b, ~ In c_nul a -> cstr (a ++ b) = a ++ cstr b.
Proof.
  induction a as [|c a IH]; intros b N; [reflexivity|]. cbn [app cstr]. destruct (Ascii.eqb_spec c c_nul) as [->|]; [destruct N; left; reflexivity|].
  f_equal. apply IH. intro K. apply N. right. exact K.
Qed.
Lemma class_no_nul : forall (p : ascii -> bool) t, p c_nul = false -> forallb p t = true -> ~ In c_nul t.
Proof. intros p t F H K. rewrite forallb_forall in H. specialize (H _ K). congruence. Qed.
Lemma cstr_no_digit : forall t, no_digit t -> no_digit (cstr t).
Proof. intros [|c t] H; [exact H|]. cbn [cstr]. destruct (Ascii.eqb c c_nul); [exact Logic.I|exact H]. Qed.
Lemma digits_none : forall t acc n, no_digit t -> take_digits t acc n = (acc, n).
Proof. intros [|c t] acc n H; [reflexivity|]. cbn in *. rewrite H. reflexivity. Qed.
Lemma digit_not_space : forall c, is_digit c = true -> is_space c = false /\ c <> c_minus /\ c <> c_plus.
Proof. intros [[] [] [] [] [] [] [] []] H; try discriminate H; repeat split; discriminate. Qed.
Lemma no_drop : forall c t, is_space c = false -> drop_space (c :: t) = c :: t.
Proof. intros c t H. cbn [drop_space]. rewrite H. reflexivity. Qed.
Lemma blank_drop : forall ws, forallb is_space ws = true -> drop_space ws = [].
Proof. induction ws as [|c ws IH]; intro H; [reflexivity|]. cbn [forallb] in H. apply andb_true_iff in H. destruct H as [H1 H2]. cbn [drop_space]. rewrite H1. apply IH, H2. Qed.
Lemma atoi_leading : forall t z, leading_int t z -> fits z -> atoi (cstr t) = Val z.
Proof.
  intros t z [ws w rest z' W I N|ws W|ws c rest W C1 C2 C3] F.
  - pose proof (class_no_nul is_space ws eq_refl W) as NW.
    rewrite (cstr_front ws _ NW). unfold atoi. rewrite (drop_blanks _ _ W). apply cstr_no_digit in N.
    assert (FI : in_int z' = true) by (apply in_int_fits; exact F).
    assert (K : forall ds, ds <> [] -> forallb is_digit ds = true -> ~ In c_nul ds) by (intros ds _ D; exact (class_no_nul is_digit ds eq_refl D)).
    destruct I as [ds D1 D2|ds D1 D2|ds D1 D2].
    + rewrite (cstr_front ds _ (K ds D1 D2)). destruct ds as [|d ds]; [congruence|]. pose proof D2 as D3. cbn [forallb] in D3. apply andb_true_iff in D3. destruct D3 as [D3 _].
      destruct (digit_not_space d D3) as (S1 & S2 & S3). cbn [app]. rewrite (no_drop d _ S1). unfold take_sign.
      destruct (Ascii.eqb_spec d c_minus); [congruence|]. destruct (Ascii.eqb_spec d c_plus); [congruence|].
      cbn [skipn]. change (d :: ds ++ cstr rest) with ((d :: ds) ++ cstr rest). rewrite (take_digits_all _ _ _ _ D2 N). cbn [length Nat.add].
      rewrite Z.mul_1_l, FI. reflexivity.
    + change (("+"%char :: ds) ++ rest) with ("+"%char :: (ds ++ rest)). change (cstr ("+"%char :: ds ++ rest)) with ("+"%char :: cstr (ds ++ rest)).
      rewrite (cstr_front ds _ (K ds D1 D2)), (no_drop "+"%char _ eq_refl). change (take_sign ("+"%char :: ds ++ cstr rest)) with (1%Z, 1%nat).
      cbn [skipn]. rewrite (take_digits_all _ _ _ _ D2 N). destruct ds; [congruence|]. cbn [length Nat.add]. rewrite Z.mul_1_l, FI. reflexivity.
    + change (("-"%char :: ds) ++ rest) with ("-"%char :: (ds ++ rest)). change (cstr ("-"%char :: ds ++ rest)) with ("-"%char :: cstr (ds ++ rest)).
      rewrite (cstr_front ds _ (K ds D1 D2)), (no_drop "-"%char _ eq_refl). change (take_sign ("-"%char :: ds ++ cstr rest)) with (-1, 1%nat).
      cbn [skipn]. rewrite (take_digits_all _ _ _ _ D2 N). destruct ds; [congruence|]. cbn [length Nat.add].
      replace (-1 * dec_value 0 (a :: ds)) with (- dec_value 0 (a :: ds)) by lia. rewrite FI. reflexivity.
  - rewrite <- (app_nil_r ws). rewrite (cstr_front ws [] (class_no_nul is_space ws eq_refl W)). cbn [cstr]. rewrite app_nil_r. unfold atoi. rewrite (blank_drop ws W). reflexivity.
  - rewrite (cstr_front ws _ (class_no_nul is_space ws eq_refl W)). unfold atoi. rewrite (drop_blanks _ _ W). cbn [cstr].
    destruct (Ascii.eqb_spec c c_nul) as [->|NC]; [reflexivity|]. rewrite (no_drop c _ C1). unfold take_sign.
    destruct (Ascii.eqb_spec c c_minus) as [->|M]; [|destruct (Ascii.eqb_spec c c_plus) as [->|M']].
    + cbn [skipn]. rewrite digits_none; [reflexivity|]. apply cstr_no_digit, C3. right. reflexivity.
    + cbn [skipn]. rewrite digits_none; [reflexivity|]. apply cstr_no_digit, C3. left. reflexivity.
    + cbn [skipn]. rewrite digits_none; [reflexivity|]. exact C2.
Qed.
Lemma to_int_as : forall v z st, as_int v z -> to_int v st = Val z.
Proof.
  intros v z st [v' z' H|v' b H|v' t z' H L F].
  - apply to_int_int, H.
  - unfold to_int. destruct (H) as [T _]. rewrite (is_ty_of _ _ _ T). cbn [ltype_eqb]. rewrite (bool_value_bool _ b st H). reflexivity.
  - unfold to_int. destruct (H) as [T _]. rewrite !(is_ty_of _ _ _ T). cbn [ltype_eqb]. rewrite (string_value_str _ t st H). cbn [obind]. apply atoi_leading; assumption.
Qed.
Definition no_dbl (v : variant) : Prop := is_ty TDouble v = false.
Lemma as_int_no_dbl : forall v z, as_int v z -> is_ty TDouble v = false.
Proof. intros v z [v' z' [T _]|v' b [T _]|v' t z' [T _] _ _]; rewrite (is_ty_of _ _ _ T); reflexivity. Qed.
Lemma int_ty : forall v z, is_int v z -> is_ty TInt v = true.
Proof. intros v z [T _]. rewrite (is_ty_of _ _ _ T). reflexivity. Qed.
Lemma one_int_or : forall v w, one_int v w -> is_ty TInt v || is_ty TInt w = true.
Proof. intros v w [[z H]|[z H]]; rewrite (int_ty _ _ H); [reflexivity|apply orb_true_r]. Qed.

Lemma arith_mixed : forall op fd fi v w a b st, as_int v a -> as_int w b -> one_int v w -> arith op fd fi v w st = fi a b.
Proof.
  intros op fd fi v w a b st Hv Hw O. unfold arith. rewrite (as_int_no_dbl _ _ Hv), (as_int_no_dbl _ _ Hw), (one_int_or _ _ O).
  cbn [orb]. rewrite (to_int_as _ _ st Hv), (to_int_as _ _ st Hw). reflexivity.
Qed.
Lemma compare_mixed : forall op fd fi fs v w a b st, as_int v a -> as_int w b -> one_int v w -> compare_op op fd fi fs v w st = Val (fi a b).
Proof.
  intros op fd fi fs v w a b st Hv Hw O. unfold compare_op. rewrite (as_int_no_dbl _ _ Hv), (as_int_no_dbl _ _ Hw), (one_int_or _ _ O).
  cbn [orb]. rewrite (to_int_as _ _ st Hv), (to_int_as _ _ st Hw). reflexivity.
Qed.
Lemma one_swap : forall v w, one_int v w -> one_int w v.
Proof. intros v w [H|H]; [right|left]; exact H. Qed.

Lemma mixed_order : forall v w a b, as_int v a -> as_int w b -> one_int v w ->
  decides $"<" v w (a < b)%Z /\ decides $"<=" v w (a <= b)%Z /\ decides $">" v w (b < a)%Z /\ decides $">=" v w (b <= a)%Z.
Proof.
  intros v w a b Hv Hw O. pose proof (one_swap _ _ O) as O'. repeat match goal with |- _ /\ _ => split end; intros i j s st; eexists.
  - split; [|apply (cmp_calls _ BLt $"<" v_lt); [vm_compute; reflexivity|reflexivity|intro; apply (compare_mixed _ _ _ _ v w a b _ Hv Hw O)]]. apply Z.ltb_lt.
  - split; [|apply (cmp_calls _ BLe $"<=" v_le); [vm_compute; reflexivity|reflexivity|intro; apply (compare_mixed _ _ _ _ v w a b _ Hv Hw O)]]. apply Z.leb_le.
  - split; [|apply (cmp_calls _ BGt $">" (fun l r => v_lt r l)); [vm_compute; reflexivity|reflexivity|intro; apply (compare_mixed _ _ _ _ w v b a _ Hw Hv O')]]. apply Z.ltb_lt.
  - split; [|apply (cmp_calls _ BGe $">=" (fun l r => v_le r l)); [vm_compute; reflexivity|reflexivity|intro; apply (compare_mixed _ _ _ _ w v b a _ Hw Hv O')]]. apply Z.leb_le.
Qed.
Lemma binary_calls : forall name b op v w i j s st o, builtin_code name = Some b ->
  (forall R p q s, call_builtin R b [p; q] s = arith_operation (fun l r => reads (op l r)) [p; q]) ->
  op v w st = o -> o <> NoFuel ->
  builtin_call name [P i (OVar v); P j (OVar w)] s st (let? r := o in Val (Some r)) st.
Proof.
  intros name b op v w i j s st o C E H N. apply (builtin_calls 0 _ b); [exact C| |destruct o; try discriminate; congruence].
  rewrite E. unfold arith_operation, arith_loop, bind, lift, reads, some, ret. cbn [var_of_ptr var_of_obj]. rewrite H. destruct o; reflexivity.
Qed.
Lemma mixed_exact : forall name f v w a b, mixed_operation name f -> as_int v a -> as_int w b -> one_int v w ->
  (fits (f a b) -> gives name v w (f a b)) /\ (~ fits (f a b) -> gives_undef name v w UBOverflow).
Proof.
  intros name f v w a b M Hv Hw O.
  assert (K : exists c op, builtin_code name = Some c /\ (forall st, op v w st = int_res (f a b)) /\
             forall R p q s, call_builtin R c [p; q] s = arith_operation (fun l r => reads (op l r)) [p; q]).
  { destruct M as [[-> ->]|[-> ->]].
    - exists BSub, v_sub. split; [vm_compute; reflexivity|]. split; [|reflexivity]. intro st. unfold v_sub. rewrite (arith_mixed _ _ _ v w a b st Hv Hw O). reflexivity.
    - exists BMul, v_mul. split; [vm_compute; reflexivity|]. split; [|reflexivity]. intro st. unfold v_mul. rewrite (arith_mixed _ _ _ v w a b st Hv Hw O). reflexivity. }
  destruct K as (c & op & C & E & X). split; intros F i j s st.
  - exists (vint (f a b)). split; [|apply vint_is]. pose proof (binary_calls name c op v w i j s st _ C X (E st)) as B.
    rewrite (int_res_fits _ F) in B. apply B. discriminate.
  - pose proof (binary_calls name c op v w i j s st _ C X (E st)) as B. rewrite (int_res_not _ F) in B. apply B. discriminate.
Qed.
Lemma mixed_div : forall v w a b q r, as_int v a -> as_int w b -> one_int v w -> b <> 0 -> ~ (a = -2147483648 /\ b = -1) -> divides_to a b q r ->
  gives $"/" v w q /\ gives $"%" v w r.
Proof.
  intros v w a b q r Hv Hw O B X D. destruct (divides_unique a b q r (Z.quot a b) (Z.rem a b) B D (quot_divides a b B)) as [-> ->].
  assert (C : ((b =? 0)%Z || ((a =? int_min) && (b =? -1))%Z) = false).
  { apply orb_false_iff. split; [apply Z.eqb_neq; exact B|]. apply andb_false_iff. unfold int_min.
    destruct (Z.eqb_spec a (-2147483648)); [|left; reflexivity]. right. apply Z.eqb_neq. tauto. }
  split; intros i j s st.
  - exists (vint (Z.quot a b)). split; [|apply vint_is]. apply (binary_calls $"/" BDiv v_div v w i j s st (Val (vint (Z.quot a b)))); [vm_compute; reflexivity|reflexivity| |discriminate].
    unfold v_div. rewrite (arith_mixed _ _ _ v w a b st Hv Hw O). unfold int_div. rewrite C. reflexivity.
  - exists (vint (Z.rem a b)). split; [|apply vint_is]. apply (binary_calls $"%" BMod v_mod v w i j s st (Val (vint (Z.rem a b)))); [vm_compute; reflexivity|reflexivity| |discriminate].
    unfold v_mod. rewrite (arith_mixed _ _ _ v w a b st Hv Hw O). unfold int_mod. rewrite C. reflexivity.
Qed.
Lemma mixed_div_undefined : forall v w a b, as_int v a -> as_int w b -> one_int v w -> b = 0 \/ (a = -2147483648 /\ b = -1) ->
  gives_undef $"/" v w UBDivZero /\ gives_undef $"%" v w UBDivZero.
Proof.
  intros v w a b Hv Hw O X.
  assert (C : ((b =? 0)%Z || ((a =? int_min) && (b =? -1))%Z) = true).
  { apply orb_true_iff. destruct X as [-> | [-> ->]]; [left; reflexivity|right; reflexivity]. }
  split; intros i j s st.
  - apply (binary_calls $"/" BDiv v_div v w i j s st (Undef UBDivZero)); [vm_compute; reflexivity|reflexivity| |discriminate].
    unfold v_div. rewrite (arith_mixed _ _ _ v w a b st Hv Hw O). unfold int_div. rewrite C. reflexivity.
  - apply (binary_calls $"%" BMod v_mod v w i j s st (Undef UBDivZero)); [vm_compute; reflexivity|reflexivity| |discriminate].
    unfold v_mod. rewrite (arith_mixed _ _ _ v w a b st Hv Hw O). unfold int_mod. rewrite C. reflexivity.
Qed.

(** ** Sums *)
Lemma bool_not_str : forall v b, is_bool v b -> is_ty TString v = false /\ is_ty TDouble v = false /\ is_ty TInt v = false.
Proof. intros v b [T _]. rewrite !(is_ty_of _ _ _ T). repeat split. Qed.
Lemma sum_bool : forall v w z (b : bool), is_int v z -> is_bool w b ->
  let r := z + (if b then 1 else 0) in
  (fits r -> gives $"+" v w r /\ gives $"+" w v r) /\ (~ fits r -> gives_undef $"+" v w UBOverflow /\ gives_undef $"+" w v UBOverflow).
Proof.
  intros v w z b Hv Hw r.
  assert (E1 : forall st, v_add v w st = (int_res r, st)).
  { intro st. unfold v_add. pose proof Hv as [T1 _]. pose proof Hw as [T2 _]. rewrite !(is_ty_of v _ _ T1), !(is_ty_of w _ _ T2). tys.
    unfold reads. rewrite (arith_mixed _ _ _ v w z (if b then 1 else 0) st); [reflexivity|constructor; exact Hv|constructor; exact Hw|left; exists z; exact Hv]. }
  assert (E2 : forall st, v_add w v st = (int_res r, st)).
  { intro st. unfold v_add. pose proof Hv as [T1 _]. pose proof Hw as [T2 _]. rewrite !(is_ty_of v _ _ T1), !(is_ty_of w _ _ T2). tys.
    unfold reads. rewrite (arith_mixed _ _ _ w v (if b then 1 else 0) z st); [|constructor; exact Hw|constructor; exact Hv|right; exists z; exact Hv].
    unfold r. rewrite Z.add_comm. reflexivity. }
  assert (G : forall x y, (forall st, v_add x y st = (int_res r, st)) -> (fits r -> gives $"+" x y r) /\ (~ fits r -> gives_undef $"+" x y UBOverflow)).
  { intros x y E. split; intros F i j s st.
    - exists (vint r). split; [|apply vint_is]. apply (builtin_calls 0 _ BAdd); [vm_compute; reflexivity| |discriminate].
      cbn [call_builtin]. unfold b_add, arith_operation, arith_loop, bind, lift. cbn [var_of_ptr var_of_obj]. rewrite E, (int_res_fits _ F). reflexivity.
    - apply (builtin_calls 0 _ BAdd); [vm_compute; reflexivity| |discriminate].
      cbn [call_builtin]. unfold b_add, arith_operation, arith_loop, bind, lift. cbn [var_of_ptr var_of_obj]. rewrite E, (int_res_not _ F). reflexivity. }
  destruct (G v w E1) as [A1 A2]. destruct (G w v E2) as [B1 B2]. split; intro F; split; auto.
Qed.

Lemma string_value_as : forall v t st, as_text v t -> string_value v st = Val t.
Proof.
  intros v t st [v' t' H|v' t' H|v' z H|v' b H]; destruct H as [T V]; unfold string_value; rewrite V; [reflexivity|reflexivity|reflexivity|].
  destruct b; reflexivity.
Qed.
Lemma v_add_text : forall v w a b st, as_text v a -> as_text w b -> (v_ty v = TString \/ v_ty w = TString) -> v_add v w st = (Val (vstr (a ++ b)), st).
Proof.
  intros v w a b st Hv Hw O. unfold v_add.
  assert (T : is_ty TString v || is_ty TString w = true) by (destruct O as [O|O]; rewrite (is_ty_of _ _ _ O); [reflexivity|apply orb_true_r]).
  rewrite T. unfold bind, reads. rewrite (string_value_as _ _ st Hv), (string_value_as _ _ st Hw). reflexivity.
Qed.
Lemma join_loop : forall args ts v t st, text_args args ts -> is_str v t ->
  exists r, arith_loop v_add args v st = (Val (Some r), st) /\ is_str r (t ++ concat ts).
Proof.
  intros args ts v t st H. revert v t. induction H as [|p u args ts (i & w & -> & Hw) H IH]; intros v t Hv; cbn [arith_loop concat].
  - exists v. rewrite app_nil_r. split; [reflexivity|exact Hv].
  - unfold bind, lift. cbn [var_of_ptr var_of_obj]. rewrite (v_add_text v w t u st (at_text _ _ Hv) Hw (or_introl (proj1 Hv))).
    rewrite app_assoc. apply IH. apply vstr_is.
Qed.
Lemma join_front : forall ps zs p t args ts v z st, int_args ps zs -> all_fit Z.add z zs -> is_int v z ->
  (exists i w, p = P i (OVar w) /\ is_str w t) -> text_args args ts ->
  exists r, arith_loop v_add (ps ++ p :: args) v st = (Val (Some r), st) /\ is_str r (z_to_string (fold_left Z.add zs z) ++ t ++ concat ts).
Proof.
  intros ps zs p t args ts v z st H. revert v z. induction H as [|q y ps zs (i & w & -> & Hw) H IH]; intros v z F Hv P A; cbn [app arith_loop fold_left].
  - destruct P as (k & w & -> & Hw). unfold bind, lift. cbn [var_of_ptr var_of_obj].
    rewrite (v_add_text v w _ t st (at_int _ _ Hv) (at_text _ _ Hw) (or_intror (proj1 Hw))). rewrite app_assoc. apply join_loop; [exact A|apply vstr_is].
  - destruct F as [F1 F2]. unfold bind, lift. cbn [var_of_ptr var_of_obj]. rewrite (v_add_ints v w z y st Hv Hw), (int_res_fits _ F1).
    apply IH; [exact F2|apply vint_is|exact P|exact A].
Qed.
Lemma join_ok : forall ps zs i w t args ts s st, int_args ps zs -> front_fits zs -> is_str w t -> text_args args ts ->
  builtin_pure $"+" (ps ++ P i (OVar w) :: args) s st (fun r => is_str r (front_text zs ++ t ++ concat ts)).
Proof.
  intros ps zs i w t args ts s st H F Hw A.
  assert (E : exists r, arith_operation v_add (ps ++ P i (OVar w) :: args) st = (Val (Some r), st) /\ is_str r (front_text zs ++ t ++ concat ts)).
  { destruct H as [|q z ps zs (j & v & -> & Hv) H]; unfold arith_operation, bind, lift; cbn [app var_of_ptr var_of_obj front_text].
    - apply join_loop; assumption.
    - apply join_front; [exact H|exact F|exact Hv|exists i, w; split; [reflexivity|exact Hw]|exact A]. }
  destruct E as (r & E & R). exists r. split; [|exact R]. apply (builtin_calls 0 _ BAdd); [vm_compute; reflexivity| |discriminate].
  exact E.
Qed.
Lemma list_kinds : forall st p es, list_arg st p es -> exists i v, p = P i (OVar v) /\ is_list v = true /\ list_value v st = Val es /\
  is_ty TString v = false /\ is_ty TDouble v = false /\ is_ty TInt v = false.
Proof.
  intros st p es (i & v & -> & [(l & H)|[T ->]]).
  - exists i, v. split; [reflexivity|]. pose proof H as (T & _). rewrite (is_list_of _ _ T), !(is_ty_of _ _ _ T), (list_value_list _ _ _ _ H). repeat split.
  - exists i, v. split; [reflexivity|]. rewrite (is_list_of _ _ T), !(is_ty_of _ _ _ T). unfold list_value. rewrite T. repeat split.
Qed.
Lemma add_two_lists : forall p q es ds s st, heap_numbered st -> list_arg st p es -> list_arg st q ds -> builtin_list $"+" [p; q] s st (es ++ ds).
Proof.
  intros p q es ds s st H A B. destruct (list_kinds _ _ _ A) as (i & v & -> & L1 & V1 & S1 & D1 & I1). destruct (list_kinds _ _ _ B) as (j & w & -> & L2 & V2 & S2 & D2 & I2).
  apply (builtin_list_intro _ BAdd); [vm_compute; reflexivity|exact H|].
  cbn [call_builtin]. unfold b_add, arith_operation, arith_loop, bind, lift. cbn [var_of_ptr var_of_obj].
  unfold v_add. rewrite S1, S2, D1, D2, I1, I2, L1, L2. cbn [orb andb]. unfold bind, reads. rewrite V1, V2. reflexivity.
Qed.
Lemma v_add_lists : forall i j v w a b st r st', list_arg st (P i (OVar v)) a -> list_arg st (P j (OVar w)) b ->
  list_result (a ++ b) st = (Val (Some r), st') -> v_add v w st = (Val r, st').
Proof.
  intros i j v w a b st r st' A B H. destruct (list_kinds _ _ _ A) as (i' & v' & [= <- <-] & L1 & V1 & S1 & D1 & I1).
  destruct (list_kinds _ _ _ B) as (j' & w' & [= <- <-] & L2 & V2 & S2 & D2 & I2).
  unfold v_add. rewrite S1, S2, D1, D2, I1, I2, L1, L2. cbn [orb andb]. unfold bind, reads. rewrite V1, V2.
  unfold list_result, bind, some, ret in H. destruct (new_list_obj (a ++ b) st) as [[o| | | |] st2]; try discriminate. injection H as <- <-. reflexivity.
Qed.
Lemma fresh_before : forall st st2 l, only_adds st st2 -> vec_at st2 l = None -> vec_at st l = None.
Proof. intros st st2 l (K & _) H. destruct (vec_at st l) as [x|] eqn:E; [|reflexivity]. rewrite (K _ _ E) in H. discriminate. Qed.
Lemma add_loop_lists : forall st ps ess, Forall2 (list_arg st) ps ess -> forall st2 v l es2, only_adds st st2 -> heap_numbered st2 -> is_list_at st2 v l es2 -> v_unq v = UnqNone -> vec_at st l = None ->
  exists r st3, arith_loop v_add ps v st2 = (Val (Some r), st3) /\ new_list_of st st3 r (es2 ++ concat ess) /\ only_adds st st3 /\ heap_numbered st3.
Proof.
  intros st ps ess H. induction H as [|p es ps ess A _ IH]; intros st2 v l es2 K N I UQ Fr; cbn [arith_loop concat].
  - exists v, st2. rewrite app_nil_r. split; [reflexivity|]. split; [|split; assumption]. exists l. split; [|split]; assumption.
  - assert (A2 : list_arg st2 p es) by (eapply adds_list; eauto).
    assert (V : list_arg st2 (P 1 (OVar v)) es2) by (exists 1%positive, v; split; [reflexivity|left; exists l; exact I]).
    pose proof A2 as (i & w & -> & _). unfold bind, lift. cbn [var_of_ptr var_of_obj].
    destruct (alloc_list (es2 ++ es) st2 N) as (r & st3 & AL & (l3 & Fr3 & NL & UQ3) & KA & N3).
    rewrite (v_add_lists 1 i v w es2 es st2 r st3 V A2 AL). rewrite app_assoc. apply (IH st3 r l3); [|exact N3|exact NL|exact UQ3|].
    + eapply MacroProofs.adds_trans; eassumption.
    + exact (fresh_before _ _ _ K Fr3).
Qed.
Lemma add_lists_ok : forall p q ps es ds ess s st, heap_numbered st -> list_arg st p es -> list_arg st q ds -> Forall2 (list_arg st) ps ess ->
  builtin_list $"+" (p :: q :: ps) s st (es ++ ds ++ concat ess).
Proof.
  intros p q ps es ds ess s st H A B C. pose proof A as (i & v & -> & _). pose proof B as (j & w & -> & _).
  destruct (alloc_list (es ++ ds) st H) as (r & st3 & AL & (l3 & Fr3 & NL & UQ3) & KA & N3).
  destruct (add_loop_lists st ps ess C st3 r l3 (es ++ ds) KA N3 NL UQ3 Fr3) as (r' & st' & L & R).
  exists r', st'. rewrite app_assoc. split; [|exact R]. apply (builtin_calls 0 _ BAdd); [vm_compute; reflexivity| |discriminate].
  cbn [call_builtin]. unfold b_add, arith_operation. cbn [arith_loop]. unfold bind, lift. cbn [var_of_ptr var_of_obj].
  rewrite (v_add_lists i j v w es ds st r st3 A B AL). exact L.
Qed.

(** ** Operands without meaning *)
Lemma refused_text : forall op v w, In op [$"+"; $"-"; $"*"; $"/"; $"%"; $"< or >"; $"<= or >="; $"=="] ->
  forall A, op_fail (A := A) op v w = Throw (exn_tok (refusal op v w) (v_tok v)).
Proof.
  intros op v w I A. unfold op_fail, refusal, kind_letter.
  assert (E : Format $"no {0} operator for types {1} and {2}" [op; [ascii_of_nat (Z.to_nat (ltype_code (v_ty v) mod 256))]; [ascii_of_nat (Z.to_nat (ltype_code (v_ty w) mod 256))]] =
    Val ($"no " ++ op ++ $" operator for types " ++ [ascii_of_nat (kind_code (v_ty v))] ++ $" and " ++ [ascii_of_nat (kind_code (v_ty w))])).
  { revert I. generalize (v_ty v), (v_ty w). clear. intros t u I. repeat destruct I as [<-|I]; try contradiction; destruct t, u; vm_compute; reflexivity. }
  cbv zeta. setoid_rewrite E. reflexivity.
Qed.
Lemma no_number_ty : forall v, no_number v -> is_ty TDouble v = false /\ is_ty TInt v = false.
Proof. intros v [A B]. unfold is_ty. destruct (v_ty v); try congruence; split; reflexivity. Qed.
Lemma no_text_ty : forall v, v_ty v <> TString -> is_ty TString v = false.
Proof. intros v A. unfold is_ty. destruct (v_ty v); try congruence; reflexivity. Qed.
Lemma refused_arith : forall name v w i j s st, In name [$"-"; $"*"; $"/"; $"%"] -> no_number v -> no_number w ->
  builtin_call name [P i (OVar v); P j (OVar w)] s st (Throw (error_at v (refusal name v w))) st.
Proof.
  intros name v w i j s st I Hv Hw. destruct (no_number_ty v Hv) as [D1 I1]. destruct (no_number_ty w Hw) as [D2 I2].
  assert (E : forall op fd fi, In op [$"-"; $"*"; $"/"; $"%"] -> arith op fd fi v w st = Throw (error_at v (refusal op v w))).
  { intros op fd fi HO. unfold arith. rewrite D1, D2, I1, I2. cbn [orb]. rewrite refused_text; [reflexivity|].
    repeat destruct HO as [<-|HO]; try contradiction; cbn; tauto. }
  repeat destruct I as [<-|I]; try contradiction.
  - apply (binary_calls _ BSub v_sub v w i j s st (Throw (error_at v (refusal $"-" v w)))); [vm_compute; reflexivity|reflexivity|apply E; cbn; tauto|discriminate].
  - apply (binary_calls _ BMul v_mul v w i j s st (Throw (error_at v (refusal $"*" v w)))); [vm_compute; reflexivity|reflexivity|apply E; cbn; tauto|discriminate].
  - apply (binary_calls _ BDiv v_div v w i j s st (Throw (error_at v (refusal $"/" v w)))); [vm_compute; reflexivity|reflexivity|apply E; cbn; tauto|discriminate].
  - apply (binary_calls _ BMod v_mod v w i j s st (Throw (error_at v (refusal $"%" v w)))); [vm_compute; reflexivity|reflexivity|apply E; cbn; tauto|discriminate].
Qed.
Lemma refused_add : forall v w i j s st, no_number v -> no_number w -> v_ty v <> TString -> v_ty w <> TString -> ~ (list_kind v /\ list_kind w) ->
  builtin_call $"+" [P i (OVar v); P j (OVar w)] s st (Throw (error_at v (refusal $"+" v w))) st.
Proof.
  intros v w i j s st Hv Hw Sv Sw L. destruct (no_number_ty v Hv) as [D1 I1]. destruct (no_number_ty w Hw) as [D2 I2].
  apply (builtin_calls 0 _ BAdd); [vm_compute; reflexivity| |discriminate].
  cbn [call_builtin]. unfold b_add, arith_operation, arith_loop, bind, lift. cbn [var_of_ptr var_of_obj].
  unfold v_add. rewrite (no_text_ty v Sv), (no_text_ty w Sw), D1, D2, I1, I2. cbn [orb].
  assert (LK : is_list v && is_list w = false).
  { apply not_true_is_false. intro K. apply L. apply andb_true_iff in K. destruct K as [K1 K2].
    assert (X : forall u, is_list u = true -> list_kind u) by (intros u; unfold is_list, list_kind; destruct (v_ty u); try discriminate; tauto).
    split; apply X; assumption. }
  rewrite LK, refused_text by (cbn; tauto). reflexivity.
Qed.
Lemma cmp_throws : forall name b nm f v w e, builtin_code name = Some b ->
  (forall R args s, call_builtin R b args s = cmp_fun nm f args s) -> (forall st, f v w st = Throw e) ->
  forall i j s st, builtin_call name [P i (OVar v); P j (OVar w)] s st (Throw e) st.
Proof.
  intros name b nm f v w r C E H i j s st. apply (builtin_calls 0 _ b); [exact C| |discriminate].
  rewrite E. unfold cmp_fun, wrap2. unfold check_args. cbn [length]. change (2 =? 2)%nat with true.
  unfold bind, ret, argv, arg, lift, reads. cbn [nth_error negb]. unfold bind, ret, lift, vref, vref_obj. rewrite H. reflexivity.
Qed.
Lemma refused_order : forall v w i j s st, no_number v -> no_number w -> v_ty v <> TString -> v_ty w <> TString ->
  builtin_call $"<" [P i (OVar v); P j (OVar w)] s st (Throw (error_at v (refusal $"< or >" v w))) st /\
  builtin_call $"<=" [P i (OVar v); P j (OVar w)] s st (Throw (error_at v (refusal $"<= or >=" v w))) st /\
  builtin_call $">" [P i (OVar v); P j (OVar w)] s st (Throw (error_at w (refusal $"< or >" w v))) st /\
  builtin_call $">=" [P i (OVar v); P j (OVar w)] s st (Throw (error_at w (refusal $"<= or >=" w v))) st.
Proof.
  intros v w i j s st Hv Hw Sv Sw. destruct (no_number_ty v Hv) as [D1 I1]. destruct (no_number_ty w Hw) as [D2 I2].
  assert (E : forall op fd fi fs st, In op [$"< or >"; $"<= or >="] -> compare_op op fd fi fs v w st = Throw (error_at v (refusal op v w))).
  { intros op fd fi fs st' HO. unfold compare_op. rewrite (no_text_ty v Sv), (no_text_ty w Sw), D1, D2, I1, I2. cbn [orb].
    rewrite refused_text; [reflexivity|]. repeat destruct HO as [<-|HO]; try contradiction; cbn; tauto. }
  assert (E' : forall op fd fi fs st, In op [$"< or >"; $"<= or >="] -> compare_op op fd fi fs w v st = Throw (error_at w (refusal op w v))).
  { intros op fd fi fs st' HO. unfold compare_op. rewrite (no_text_ty v Sv), (no_text_ty w Sw), D1, D2, I1, I2. cbn [orb].
    rewrite refused_text; [reflexivity|]. repeat destruct HO as [<-|HO]; try contradiction; cbn; tauto. }
  split; [|split; [|split]].
  - apply (cmp_throws _ BLt $"<" v_lt); [vm_compute; reflexivity|reflexivity|intro; apply E; cbn; tauto].
  - apply (cmp_throws _ BLe $"<=" v_le); [vm_compute; reflexivity|reflexivity|intro; apply E; cbn; tauto].
  - apply (cmp_throws _ BGt $">" (fun l r => v_lt r l)); [vm_compute; reflexivity|reflexivity|intro; apply E'; cbn; tauto].
  - apply (cmp_throws _ BGe $">=" (fun l r => v_le r l)); [vm_compute; reflexivity|reflexivity|intro; apply E'; cbn; tauto].
Qed.

(** ** Equality across kinds *)
Ltac kinds v := unfold is_list, is_ty; destruct (v_ty v); try congruence; try reflexivity.
Lemma equal_symbol : forall v w, v_ty v = TSym -> v_ty w <> TSym ->
  (decides $"==" v w False /\ decides $"!=" v w True) /\ (decides $"==" w v False /\ decides $"!=" w v True).
Proof.
  intros v w T U.
  assert (E : forall st, equal_op v w st = Val false /\ equal_op w v st = Val false).
  { intro st. unfold equal_op, is_ty. rewrite T. destruct (v_ty w); try congruence; split; reflexivity. }
  assert (X : forall x y, (forall st, equal_op x y st = Val false) -> decides $"==" x y False /\ decides $"!=" x y True).
  { intros x y H. destruct (eq_decides x y false False H ltac:(intuition discriminate)) as [A B]. split; [exact A|].
    intros i j s st. destruct (B i j s st) as (b & K & C). exists b. split; [|exact C]. tauto. }
  split; apply X; intro st; apply E.
Qed.
Lemma decides_iff : forall name v w Q R, (Q <-> R) -> decides name v w Q -> decides name v w R.
Proof. intros name v w Q R E H i j s st. destruct (H i j s st) as (b & K & C). exists b. split; [|exact C]. tauto. Qed.
Lemma equal_nil : forall v w, v_ty v = TNil -> v_ty w <> TSym ->
  (decides $"==" v w (v_ty w = TNil) /\ decides $"!=" v w (v_ty w <> TNil)) /\
  (decides $"==" w v (v_ty w = TNil) /\ decides $"!=" w v (v_ty w <> TNil)).
Proof.
  intros v w T U. split; (apply (eq_decides _ _ (ltype_eqb (v_ty w) TNil)); [|destruct (v_ty w); cbn; intuition discriminate]);
    intro st; unfold equal_op, is_ty; rewrite T; destruct (v_ty w); try congruence; reflexivity.
Qed.
Lemma equal_undefined : forall v w, v_ty v = TUndef -> v_ty w <> TSym ->
  (decides $"==" v w (v_ty w = TUndef) /\ decides $"!=" v w (v_ty w <> TUndef)) /\
  (decides $"==" w v (v_ty w = TUndef) /\ decides $"!=" w v (v_ty w <> TUndef)).
Proof.
  intros v w T U. split; (apply (eq_decides _ _ (ltype_eqb (v_ty w) TUndef)); [|destruct (v_ty w); cbn; intuition discriminate]);
    intro st; unfold equal_op, is_list, is_ty; rewrite T; destruct (v_ty w); try congruence; reflexivity.
Qed.
Lemma equal_int_bool : forall v w z (b : bool), is_int v z -> is_bool w b ->
  (decides $"==" v w (z = if b then 1 else 0) /\ decides $"!=" v w (z <> if b then 1 else 0)) /\
  (decides $"==" w v (z = if b then 1 else 0) /\ decides $"!=" w v (z <> if b then 1 else 0)).
Proof.
  intros v w z b Hv Hw. pose proof Hv as [T1 _]. pose proof Hw as [T2 _].
  split; (apply (eq_decides _ _ (Z.eqb z (if b then 1 else 0))); [|apply Z.eqb_eq]); intro st; unfold equal_op;
    rewrite !(is_ty_of v _ _ T1), !(is_ty_of w _ _ T2), !(is_list_of v _ T1), !(is_list_of w _ T2); tys;
    rewrite (to_int_int v z st Hv), (to_int_as w _ st (ai_bool _ _ Hw)); [reflexivity|].
  cbn [obind]. rewrite Z.eqb_sym. reflexivity.
Qed.
Lemma join_more : forall A (f g : A -> out str) sep l acc t, (forall x u, f x = Val u -> g x = Val u) -> join_out sep f l acc = Val t -> join_out sep g l acc = Val t.
Proof.
  intros A f g sep l. induction l as [|x l IH]; intros acc t H J; cbn [join_out] in *; [exact J|].
  destruct (f x) as [u| | | |] eqn:E; try discriminate. rewrite (H _ _ E). cbn [obind] in *. eapply IH; eauto.
Qed.
Lemma show_step : forall st n m, (forall r t, show n st r = Val t -> show m st r = Val t) -> forall r t, show (S n) st r = Val t -> show (S m) st r = Val t.
Proof.
  intros st n m IH r t H.
  assert (D : forall (X : obj -> shreq) p u, (let? o := deref p in show n st (X o)) = Val u -> (let? o := deref p in show m st (X o)) = Val u).
  { intros X p u K. destruct (deref p) as [o| | | |]; try discriminate. cbn [obind] in *. apply IH, K. }
  assert (O : forall x (F : str -> out str) u, (let? a := show n st x in F a) = Val u -> (let? a := show m st x in F a) = Val u).
  { intros x F u K. destruct (show n st x) as [y| | | |] eqn:E; try discriminate. rewrite (IH _ _ E). exact K. }
  assert (J : forall (X : obj -> shreq) es u, (let? a := join_out $" " (fun p => let? o := deref p in show n st (X o)) es [] in Val ($"(" ++ a ++ $")")) = Val u ->
     (let? a := join_out $" " (fun p => let? o := deref p in show m st (X o)) es [] in Val ($"(" ++ a ++ $")")) = Val u).
  { intros X es u K. destruct (join_out $" " (fun p => let? o := deref p in show n st (X o)) es []) as [y| | | |] eqn:E; try discriminate.
    rewrite (join_more _ _ (fun p => let? o := deref p in show m st (X o)) _ _ _ _ (D X) E). exact K. }
  destruct r as [o|v|v|o|[o|]]; cbn [show] in H |- *.
  - destruct o; try exact H; [|apply IH, H]. destruct (get_vec _ st); try discriminate. cbn [obind] in *. apply (J ShObj), H.
  - destruct (v_ty v); try exact H; try (apply IH, H); destruct (v_val v) as [o|]; try exact H; try (apply IH, H).
    + destruct o; try exact H. apply IH, H.
    + apply O, H.
  - destruct (is_ty TString v); [|apply IH, H]. destruct (v_val v); [|exact H]. apply O, H.
  - destruct o; try (apply IH, H); [|destruct (is_ty TString v); apply IH, H].
    destruct (get_vec _ st); try discriminate. cbn [obind] in *. apply (J ShCont), H.
  - destruct o; try exact H; try (apply IH, H). destruct (get_dict _ st) as [d| | | |]; try discriminate. cbn [obind] in *.
    match type of H with obind (join_out _ ?f _ _) _ = _ => destruct (join_out $", " f d []) as [y| | | |] eqn:E; try discriminate end.
    match goal with |- obind (join_out _ ?g _ _) _ = _ => assert (E2 : join_out $", " g d [] = Val y) end.
    { eapply join_more; [|exact E]. intros kv u K. cbv beta in *. apply O. destruct (show n st (ShNat (v_val (fst kv)))); try discriminate. cbn [obind] in *. apply O, K. }
    rewrite E2. exact H.
  - discriminate.
Qed.
Lemma show_more : forall n st r t, show n st r = Val t -> show (S n) st r = Val t.
Proof. induction n as [|n IH]; intros st r t H; [discriminate|]. revert H. apply show_step. intros r' t'. apply IH. Qed.
Lemma equal_text : forall v w a b i j s st, is_str v a -> v_ty w <> TSym -> v_ty w <> TNil -> v_ty w <> TUndef -> shows s st (P j (OVar w)) b ->
  exists e : bool, (e = true <-> a = b) /\
   builtin_pure $"==" [P i (OVar v); P j (OVar w)] s st (fun r => is_bool r e) /\ builtin_pure $"==" [P j (OVar w); P i (OVar v)] s st (fun r => is_bool r e) /\
   builtin_pure $"!=" [P i (OVar v); P j (OVar w)] s st (fun r => is_bool r (negb e)) /\ builtin_pure $"!=" [P j (OVar w); P i (OVar v)] s st (fun r => is_bool r (negb e)).
Proof.
  intros v w a b i j s st Hv N1 N2 N3 Sh. pose proof (shows_text _ _ _ _ Sh) as W. rewrite ptr_str_var in W.
  assert (W' : var_str w st = Val b) by (unfold var_str, show_fuel; apply show_more; exact W).
  exists (str_eqb a b). split; [apply str_eqb_iff|].
  assert (E : equal_op v w st = Val (str_eqb a b)).
  { unfold equal_op. rewrite (var_str_str v a st Hv), W'. destruct Hv as [T _]. unfold is_list, is_ty. rewrite T. destruct (v_ty w); try congruence; reflexivity. }
  assert (E' : equal_op w v st = Val (str_eqb a b)).
  { unfold equal_op. rewrite (var_str_str v a st Hv), W'. replace (str_eqb a b) with (str_eqb b a) by (destruct (str_eqb a b) eqn:Q; [apply str_eqb_iff in Q; apply str_eqb_iff; congruence|
      apply not_true_is_false; intro K; apply str_eqb_iff in K; apply (f_equal negb) in Q; rewrite <- K in Q; rewrite (proj2 (str_eqb_iff b b) eq_refl) in Q; discriminate]).
    destruct Hv as [T _]. unfold is_list, is_ty. rewrite T. destruct (v_ty w); try congruence; reflexivity. }
  assert (G : forall name c nm f x y r k l, builtin_code name = Some c -> (forall R args s, call_builtin R c args s = cmp_fun nm f args s) -> f x y st = Val r ->
     builtin_pure name [P k (OVar x); P l (OVar y)] s st (fun u => is_bool u r)).
  { intros name c nm f x y r k l C X H. apply (pure_intro _ c _ _ _ (vbool r)); [exact C| |apply vbool_is].
    rewrite X. unfold cmp_fun, wrap2. unfold check_args. cbn [length]. change (2 =? 2)%nat with true.
    unfold bind, ret, argv, arg, lift, reads. cbn [nth_error negb]. unfold bind, ret, lift, vref, vref_obj. rewrite H. reflexivity. }
  repeat match goal with |- _ /\ _ => split end.
  - apply (G _ BEq $"==" equal_op); [vm_compute; reflexivity|reflexivity|exact E].
  - apply (G _ BEq $"==" equal_op); [vm_compute; reflexivity|reflexivity|exact E'].
  - apply (G _ BNe $"!=" (fun l r st => let? b := equal_op l r st in Val (negb b))); [vm_compute; reflexivity|reflexivity|]. rewrite E. reflexivity.
  - apply (G _ BNe $"!=" (fun l r st => let? b := equal_op l r st in Val (negb b))); [vm_compute; reflexivity|reflexivity|]. rewrite E'. reflexivity.
Qed.
Lemma equal_refused : forall v w i j s st, plain_kind v -> plain_kind w -> ~ (v_ty v = TNative /\ v_ty w = TNative) -> ~ (v_ty v = TBool /\ v_ty w = TBool) -> ~ (v_ty v = TList /\ v_ty w = TList) ->
  builtin_call $"==" [P i (OVar v); P j (OVar w)] s st (Throw (error_at v (refusal $"==" v w))) st.
Proof.
  intros v w i j s st Pv Pw A B C.
  apply (cmp_throws _ BEq $"==" equal_op); [vm_compute; reflexivity|reflexivity|]. intro st'.
  unfold equal_op. rewrite refused_text by (cbn; tauto). unfold plain_kind in *. unfold is_list, is_ty.
  destruct (v_ty v); cbn in Pv; try (exfalso; clear - Pv; intuition discriminate); destruct (v_ty w); cbn in Pw; try (exfalso; clear - Pw A B C; intuition discriminate); reflexivity.
Qed.

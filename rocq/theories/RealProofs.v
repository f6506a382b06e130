(** The builtin functions on doubles that are whole numbers. *)
Require Import String Ascii List ZArith Bool Lia.
Require Import Coq.Floats.SpecFloat.
From Verif Require Import Base CppString Num Token Value State Show ScopeOps Builtins Table Eval LispTop SpecLex SpecRun SpecVal SpecNum SpecFloats SpecIo
  BuiltinProofs NumProofs IoProofs FloatProofs.
Import ListNotations.
Open Scope Z_scope.

Lemma number_double : forall v z st, is_number v z -> exists d, to_double v st = Val d /\ whole d z /\ small z.
Proof.
  intros v z st [[I F]|(d & D & W & S)].
  - exists (f_of_z z). split; [apply to_double_int; exact I|]. unfold fits in F. assert (S : small z) by (unfold small; lia). split; [apply of_z_whole; exact S|exact S].
  - exists d. split; [apply to_double_dbl; exact D|]. split; assumption.
Qed.
Lemma vdouble_is : forall d, is_dbl (vdouble d) d. Proof. split; reflexivity. Qed.
Lemma number_types : forall v z, is_number v z -> v_ty v = TInt \/ v_ty v = TDouble.
Proof. intros v z [[[I _] _]|(d & [D _] & _)]; [left|right]; assumption. Qed.
Lemma one_ty : forall v w, one_double v w -> is_ty TDouble v || is_ty TDouble w = true.
Proof. intros v w [H|H]; unfold is_ty; rewrite H; [reflexivity|]. apply orb_true_r. Qed.
Lemma arith_numbers : forall op fd fi v w a b st, is_number v a -> is_number w b -> one_double v w ->
  exists d1 d2, arith op fd fi v w st = Val (vdouble (fd d1 d2)) /\ whole d1 a /\ whole d2 b /\ small a /\ small b.
Proof.
  intros op fd fi v w a b st V W O. destruct (number_double v a st V) as (d1 & D1 & W1 & S1). destruct (number_double w b st W) as (d2 & D2 & W2 & S2).
  exists d1, d2. split; [|tauto]. unfold arith. rewrite (one_ty v w O), D1. cbn [obind]. rewrite D2. reflexivity.
Qed.
Lemma add_numbers : forall v w a b st, is_number v a -> is_number w b -> one_double v w -> small (a + b) ->
  exists r, v_add v w st = (Val r, st) /\ is_whole r (a + b).
Proof.
  intros v w a b st V W O S. destruct (arith_numbers $"+" fadd (fun a b => int_res (a + b)) v w a b st V W O) as (d1 & d2 & A & W1 & W2 & S1 & S2).
  exists (vdouble (fadd d1 d2)). split; [|eexists; split; [apply vdouble_is|apply add_whole; assumption]].
  unfold v_add. assert (T : is_ty TString v || is_ty TString w = false).
  { unfold is_ty. destruct (number_types v a V) as [-> | ->]; destruct (number_types w b W) as [-> | ->]; reflexivity. }
  rewrite T. rewrite (one_ty v w O). cbn [orb]. unfold reads. rewrite A. reflexivity.
Qed.
Lemma sub_numbers : forall v w a b st, is_number v a -> is_number w b -> one_double v w -> small (a - b) ->
  exists r, reads (v_sub v w) st = (Val r, st) /\ is_whole r (a - b).
Proof.
  intros v w a b st V W O S. destruct (arith_numbers $"-" fsub (fun a b => int_res (a - b)) v w a b st V W O) as (d1 & d2 & A & W1 & W2 & S1 & S2).
  exists (vdouble (fsub d1 d2)). split; [unfold reads, v_sub; rewrite A; reflexivity|eexists; split; [apply vdouble_is|apply sub_whole; assumption]].
Qed.
Lemma mul_numbers : forall v w a b st, is_number v a -> is_number w b -> one_double v w -> small (a * b) ->
  exists r, reads (v_mul v w) st = (Val r, st) /\ is_whole r (a * b).
Proof.
  intros v w a b st V W O S. destruct (arith_numbers $"*" fmul (fun a b => int_res (a * b)) v w a b st V W O) as (d1 & d2 & A & W1 & W2 & S1 & S2).
  exists (vdouble (fmul d1 d2)). split; [unfold reads, v_mul; rewrite A; reflexivity|eexists; split; [apply vdouble_is|apply mul_whole; assumption]].
Qed.
Lemma div_numbers : forall v w a b c st, is_number v a -> is_number w b -> one_double v w -> b <> 0 -> a = c * b ->
  exists r, reads (v_div v w) st = (Val r, st) /\ is_whole r c.
Proof.
  intros v w a b c st V W O N E. destruct (arith_numbers $"/" fdiv int_div v w a b st V W O) as (d1 & d2 & A & W1 & W2 & S1 & S2).
  exists (vdouble (fdiv d1 d2)). split; [unfold reads, v_div; rewrite A; reflexivity|eexists; split; [apply vdouble_is|eapply div_whole; eassumption]].
Qed.
Lemma mod_numbers : forall v w a b st, is_number v a -> is_number w b -> one_double v w -> b <> 0 ->
  exists r, reads (v_mod v w) st = (Val r, st) /\ is_whole r (Z.rem a b).
Proof.
  intros v w a b st V W O N. destruct (arith_numbers $"%" ffmod int_mod v w a b st V W O) as (d1 & d2 & A & W1 & W2 & S1 & S2).
  exists (vdouble (ffmod d1 d2)). split; [unfold reads, v_mod; rewrite A; reflexivity|eexists; split; [apply vdouble_is|apply mod_whole; assumption]].
Qed.
Lemma whole_number : forall r z, is_whole r z -> small z -> is_number r z.
Proof. intros r z (d & D & W) S. right. exists d. tauto. Qed.
Lemma whole_ty : forall r z, is_whole r z -> v_ty r = TDouble.
Proof. intros r z (d & [D _] & _). exact D. Qed.
Lemma loop_whole : forall (op : variant -> variant -> M variant) f,
  (forall v w a b st, is_number v a -> is_number w b -> one_double v w -> small (f a b) -> exists r, op v w st = (Val r, st) /\ is_whole r (f a b)) ->
  forall args zs v z st, number_args args zs -> is_whole v z -> small z -> all_small f z zs ->
  exists r, arith_loop op args v st = (Val (Some r), st) /\ is_whole r (fold_left f zs z).
Proof.
  intros op f Hop args zs v z st H. revert v z. induction H as [|p y args zs (i & w & -> & Hw) H IH]; intros v z Hv Hs Hf; cbn [arith_loop fold_left].
  - exists v. split; [reflexivity|exact Hv].
  - destruct Hf as [F1 F2]. unfold bind, lift. cbn [var_of_ptr var_of_obj].
    destruct (Hop v w z y st (whole_number v z Hv Hs) Hw (or_introl (whole_ty v z Hv)) F1) as (r & E & R). rewrite E. apply IH; assumption.
Qed.
Lemma many_whole : forall name f i v z args zs s st, operation name f -> is_whole v z -> small z -> number_args args zs -> args <> [] -> all_small f z zs ->
  builtin_pure name (P i (OVar v) :: args) s st (fun r => is_whole r (fold_left f zs z)).
Proof.
  intros name f i v z args zs s st O V S A N F. destruct O as [[-> ->]|[[-> ->]|[-> ->]]].
  - destruct (loop_whole v_add Z.add add_numbers args zs v z st A V S F) as (r & E & R). apply (pure_intro _ BAdd) with (r := r); [vm_compute; reflexivity|exact E|exact R].
  - destruct (loop_whole (fun l r => reads (v_sub l r)) Z.sub sub_numbers args zs v z st A V S F) as (r & E & R).
    apply (pure_intro _ BSub) with (r := r); [vm_compute; reflexivity| |exact R]. destruct args as [|p args]; [congruence|]. exact E.
  - destruct (loop_whole (fun l r => reads (v_mul l r)) Z.mul mul_numbers args zs v z st A V S F) as (r & E & R). apply (pure_intro _ BMul) with (r := r); [vm_compute; reflexivity|exact E|exact R].
Qed.
Lemma two_whole : forall name f v w a b, operation name f -> is_number v a -> is_number w b -> one_double v w -> small (f a b) -> gives_whole name v w (f a b).
Proof.
  intros name f v w a b O V W D F i j s st. destruct O as [[-> ->]|[[-> ->]|[-> ->]]].
  - destruct (add_numbers v w a b st V W D F) as (r & E & R). apply (pure_intro _ BAdd) with (r := r); [vm_compute; reflexivity| |exact R].
    cbn [call_builtin]. unfold b_add, arith_operation, arith_loop, bind, lift. cbn [var_of_ptr var_of_obj]. rewrite E. reflexivity.
  - destruct (sub_numbers v w a b st V W D F) as (r & E & R). apply (pure_intro _ BSub) with (r := r); [vm_compute; reflexivity| |exact R].
    cbn [call_builtin]. unfold b_sub, arith_operation, arith_loop, bind, lift. cbn [var_of_ptr var_of_obj]. rewrite E. reflexivity.
  - destruct (mul_numbers v w a b st V W D F) as (r & E & R). apply (pure_intro _ BMul) with (r := r); [vm_compute; reflexivity| |exact R].
    cbn [call_builtin]. unfold b_mul, arith_operation, arith_loop, bind, lift. cbn [var_of_ptr var_of_obj]. rewrite E. reflexivity.
Qed.
Lemma divide_whole : forall v w a b, is_number v a -> is_number w b -> one_double v w -> b <> 0 ->
  (forall c, a = c * b -> gives_whole $"/" v w c) /\ gives_whole $"%" v w (Z.rem a b).
Proof.
  intros v w a b V W D N. split.
  - intros c C i j s st. destruct (div_numbers v w a b c st V W D N C) as (r & E & R). apply (pure_intro _ BDiv) with (r := r); [vm_compute; reflexivity| |exact R].
    cbn [call_builtin]. unfold b_div, arith_operation, arith_loop, bind, lift. cbn [var_of_ptr var_of_obj]. rewrite E. reflexivity.
  - intros i j s st. destruct (mod_numbers v w a b st V W D N) as (r & E & R). apply (pure_intro _ BMod) with (r := r); [vm_compute; reflexivity| |exact R].
    cbn [call_builtin]. unfold b_mod, arith_operation, arith_loop, bind, lift. cbn [var_of_ptr var_of_obj]. rewrite E. reflexivity.
Qed.
Lemma negate_whole : forall v z i s st, is_whole v z -> builtin_pure $"-" [P i (OVar v)] s st (fun r => is_whole r (- z)).
Proof.
  intros v z i s st (d & D & W). apply (pure_intro _ BSub) with (r := vdouble (fneg d)); [vm_compute; reflexivity| |].
  - cbn [call_builtin]. unfold b_sub, bind, lift, reads, some, ret, double_value. cbn [var_of_ptr var_of_obj]. destruct D as [D1 D2]. rewrite !(is_ty_of v _ _ D1). tys. rewrite D2. reflexivity.
  - eexists. split; [apply vdouble_is|apply opp_whole; exact W].
Qed.
(** ** Comparison *)
Lemma cmp_numbers : forall op fd fi fs v w a b st, is_number v a -> is_number w b -> one_double v w ->
  exists d1 d2, compare_op op fd fi fs v w st = Val (fd d1 d2) /\ whole d1 a /\ whole d2 b /\ small a /\ small b.
Proof.
  intros op fd fi fs v w a b st V W O. destruct (number_double v a st V) as (d1 & D1 & W1 & S1). destruct (number_double w b st W) as (d2 & D2 & W2 & S2).
  exists d1, d2. split; [|tauto]. unfold compare_op. rewrite (one_ty v w O), D1. cbn [obind]. rewrite D2. reflexivity.
Qed.
Lemma lt_numbers : forall v w a b st, is_number v a -> is_number w b -> one_double v w -> v_lt v w st = Val (a <? b).
Proof. intros v w a b st V W O. unfold v_lt. destruct (cmp_numbers $"< or >" fltb Z.ltb (fun c => match c with Lt => true | _ => false end) v w a b st V W O) as (d1 & d2 & -> & W1 & W2 & S1 & S2). f_equal. apply ltb_whole; assumption. Qed.
Lemma le_numbers : forall v w a b st, is_number v a -> is_number w b -> one_double v w -> v_le v w st = Val (a <=? b).
Proof. intros v w a b st V W O. unfold v_le. destruct (cmp_numbers $"<= or >=" fleb Z.leb (fun c => match c with Gt => false | _ => true end) v w a b st V W O) as (d1 & d2 & -> & W1 & W2 & S1 & S2). f_equal. apply leb_whole; assumption. Qed.
Lemma one_swap : forall v w, one_double v w -> one_double w v. Proof. intros v w [H|H]; [right|left]; exact H. Qed.
Lemma order_numbers : forall v w a b, is_number v a -> is_number w b -> one_double v w ->
  decides $"<" v w (a < b) /\ decides $"<=" v w (a <= b) /\ decides $">" v w (b < a) /\ decides $">=" v w (b <= a).
Proof.
  intros v w a b Hv Hw O. pose proof (one_swap v w O) as O'. repeat match goal with |- _ /\ _ => split end; intros i j s st; eexists.
  - split; [|apply (cmp_calls _ BLt $"<" v_lt); [vm_compute; reflexivity|reflexivity|intro; apply (lt_numbers v w a b _ Hv Hw O)]]. apply Z.ltb_lt.
  - split; [|apply (cmp_calls _ BLe $"<=" v_le); [vm_compute; reflexivity|reflexivity|intro; apply (le_numbers v w a b _ Hv Hw O)]]. apply Z.leb_le.
  - split; [|apply (cmp_calls _ BGt $">" (fun l r => v_lt r l)); [vm_compute; reflexivity|reflexivity|intro; apply (lt_numbers w v b a _ Hw Hv O')]]. apply Z.ltb_lt.
  - split; [|apply (cmp_calls _ BGe $">=" (fun l r => v_le r l)); [vm_compute; reflexivity|reflexivity|intro; apply (le_numbers w v b a _ Hw Hv O')]]. apply Z.leb_le.
Qed.
Lemma equal_numbers : forall v w a b, is_number v a -> is_number w b -> one_double v w -> small (a - b) ->
  decides $"==" v w (a = b) /\ decides $"!=" v w (a <> b).
Proof.
  intros v w a b V W O S. apply (eq_decides v w (a =? b)); [|apply Z.eqb_eq]. intro st.
  destruct (number_double v a st V) as (d1 & D1 & W1 & S1). destruct (number_double w b st W) as (d2 & D2 & W2 & S2).
  pose proof (one_ty v w O) as OT. destruct (number_types v a V) as [H1|H1]; destruct (number_types w b W) as [H2|H2]; unfold equal_op;
    rewrite ?(is_list_of v _ H1), ?(is_list_of w _ H2); rewrite !(is_ty_of v _ _ H1), !(is_ty_of w _ _ H2) in *; tys;
    try (unfold ltype_eqb in OT; cbn in OT; discriminate); rewrite D1; cbn [obind]; rewrite D2; cbn [obind]; f_equal; apply eq_whole; assumption.
Qed.
(** ** Conversions *)
Lemma float_of_int : forall v z i s st, is_int v z -> fits z -> builtin_pure $"float" [P i (OVar v)] s st (fun r => is_whole r z).
Proof.
  intros v z i s st V F. apply (pure_intro _ BToFloat) with (r := vdouble (f_of_z z)); [vm_compute; reflexivity| |].
  - cbn [call_builtin]. unfold b_float, check_args, argc, arg, bind, lift, reads, ret, some. cbn [length Nat.eqb negb nth_error var_of_ptr var_of_obj].
    pose proof V as [V1 _]. rewrite !(is_ty_of v _ _ V1). tys. rewrite (int_value_int _ _ _ V). reflexivity.
  - eexists. split; [apply vdouble_is|]. apply of_z_whole. unfold fits in F. lia.
Qed.
Lemma float_of_dbl : forall v d i s st, is_dbl v d -> builtin_pure $"float" [P i (OVar v)] s st (fun r => is_dbl r d).
Proof.
  intros v d i s st V. apply (pure_intro _ BToFloat) with (r := vdouble d); [vm_compute; reflexivity| |apply vdouble_is].
  cbn [call_builtin]. unfold b_float, check_args, argc, arg, bind, lift, reads, ret, some, double_value. cbn [length Nat.eqb negb nth_error var_of_ptr var_of_obj].
  destruct V as [V1 V2]. rewrite !(is_ty_of v _ _ V1). tys. rewrite V2. reflexivity.
Qed.
Lemma float_of_bool : forall v (b : bool) i s st, is_bool v b -> builtin_pure $"float" [P i (OVar v)] s st (fun r => is_whole r (if b then 1 else 0)).
Proof.
  intros v b i s st V. apply (pure_intro _ BToFloat) with (r := vdouble (f_of_z (if b then 1 else 0))); [vm_compute; reflexivity| |].
  - cbn [call_builtin]. unfold b_float, check_args, argc, arg, bind, lift, reads, ret, some. cbn [length Nat.eqb negb nth_error var_of_ptr var_of_obj].
    pose proof V as [V1 _]. rewrite !(is_ty_of v _ _ V1). tys. rewrite (bool_value_bool _ _ _ V). reflexivity.
  - eexists. split; [apply vdouble_is|]. apply of_z_whole. destruct b; reflexivity.
Qed.
Lemma int_call_dbl : forall v d i s st, is_dbl v d ->
  call_builtin (run 0) BToInt [P i (OVar v)] s st = (match f_to_int d with Val z => Val (Some (vint z)) | Throw e => Throw e | Undef u => Undef u | Unmod w => Unmod w | NoFuel => NoFuel end, st).
Proof.
  intros v d i s st [V1 V2]. cbn [call_builtin]. unfold b_int, check_args, argc, arg, bind, lift, reads, ret, some, double_value. cbn [length Nat.eqb negb nth_error var_of_ptr var_of_obj].
  rewrite !(is_ty_of v _ _ V1). tys. rewrite V2. destruct (f_to_int d); reflexivity.
Qed.
Lemma int_of_dbl : forall v d z i s st, is_dbl v d -> toward_zero d z -> fits z -> builtin_pure $"int" [P i (OVar v)] s st (fun r => is_int r z).
Proof.
  intros v d z i s st V T F. apply (pure_intro _ BToInt) with (r := vint z); [vm_compute; reflexivity| |apply vint_is]. rewrite (int_call_dbl v d i s st V).
  unfold f_to_int. apply trunc_toward in T. rewrite T. apply in_int_fits in F. rewrite F. reflexivity.
Qed.
Lemma int_of_big : forall v d i s st, is_dbl v d -> (forall z, toward_zero d z -> ~ fits z) -> builtin_call $"int" [P i (OVar v)] s st (Undef UBOverflow) st.
Proof.
  intros v d i s st V T. apply (builtin_calls 0 _ BToInt); [vm_compute; reflexivity| |discriminate]. rewrite (int_call_dbl v d i s st V).
  unfold f_to_int. destruct (f_trunc_z d) as [z|] eqn:E; [|reflexivity]. apply trunc_toward in E. destruct (in_int z) eqn:I; [apply in_int_fits in I; destruct (T z E I)|reflexivity].
Qed.
Lemma int_float_int : forall v z i j s st, is_int v z -> fits z ->
  exists r, builtin_call $"float" [P i (OVar v)] s st (Val (Some r)) st /\ builtin_pure $"int" [P j (OVar r)] s st (fun x => is_int x z).
Proof.
  intros v z i j s st V F. destruct (float_of_int v z i s st V F) as (r & B & (d & D & W)). exists r. split; [exact B|].
  eapply int_of_dbl; [exact D|apply toward_whole; exact W|exact F].
Qed.
(** ** Text *)
Lemma show_dbl : forall n v d st, is_dbl v d -> show (S (S n)) st (ShVar v) = Val (f_to_string d).
Proof. intros n v d st [H1 H2]. cbn [show]. rewrite H1, H2. reflexivity. Qed.
Lemma str_of_whole : forall v z i s st, is_whole v z -> z <> 0 -> small z ->
  exists t, int_text t z /\ builtin_pure $"str" [P i (OVar v)] s st (fun r => is_str r (t ++ $".000000")).
Proof.
  intros v z i s st (d & D & W) N S. exists (z_to_string z). split; [apply ClassifyProofs.z_to_string_int_text|].
  apply (pure_intro _ BToString) with (r := vstr (f_to_string d)); [vm_compute; reflexivity| |].
  - cbn [call_builtin]. unfold b_str, args_str, check_args, argv, arg, bind, lift, reads, ret, some. cbn [length Nat.eqb negb nth_error vref vref_obj].
    assert (E : ptr_str (P i (OVar v)) st = Val (f_to_string d)) by (apply (show_dbl _ v d st D)). rewrite E.
    pose proof D as [D1 _]. rewrite !(is_ty_of v _ _ D1). tys. reflexivity.
  - rewrite (text_whole d z W N S). apply vstr_is.
Qed.
Lemma parsefloat_text : forall v ws w rest z i s st, is_str v (ws ++ w ++ rest) -> forallb is_space ws = true -> decimal_text w z -> small z -> ends_number rest ->
  builtin_pure $"parse-float" [P i (OVar v)] s st (fun r => is_whole r z) /\ builtin_pure $"float" [P i (OVar v)] s st (fun r => is_whole r z).
Proof.
  intros v ws w rest z i s st V WS D S R. destruct (strtod_text ws w rest z WS D S R) as (f & n & E & W).
  assert (K : b_parsefloat [P i (OVar v)] s st = (Val (Some (vdouble f)), st)).
  { unfold b_parsefloat, check_args, catch_all, try_catch, argc, arg, bind, lift, reads, ret, some. cbn [length Nat.eqb negb nth_error var_of_ptr var_of_obj].
    rewrite (var_str_str _ _ _ V). unfold stod, stod_pos. rewrite E. reflexivity. }
  assert (Q : is_whole (vdouble f) z) by (exists f; split; [apply vdouble_is|exact W]). split.
  - apply (pure_intro _ BParseFloat) with (r := vdouble f); [vm_compute; reflexivity|exact K|exact Q].
  - apply (pure_intro _ BToFloat) with (r := vdouble f); [vm_compute; reflexivity| |exact Q].
    cbn [call_builtin]. unfold b_float, check_args, argc, arg, bind, lift, reads, ret. cbn [length Nat.eqb negb nth_error var_of_ptr var_of_obj].
    destruct V as [V1 _]. rewrite !(is_ty_of v _ _ V1). tys. exact K.
Qed.
Lemma whole_text_back : forall v z i j w s st t, is_whole v z -> z <> 0 -> small z -> builtin_pure $"str" [P i (OVar v)] s st (fun r => is_str r t) -> is_str w t ->
  builtin_pure $"parse-float" [P j (OVar w)] s st (fun r => is_whole r z).
Proof.
  intros v z i j w s st t V N S B W. destruct (str_of_whole v z i s st V N S) as (u & U & B2).
  pose proof (StrProofs.pure_deterministic _ _ _ _ _ _ B B2) as (r & [_ R1] & [_ R2]). assert (E : t = u ++ $".000000") by congruence. subst t.
  destruct (parsefloat_text w [] (u ++ $".000000") [] z j s st) as [Q _]; try assumption; try reflexivity.
  - rewrite app_nil_r. exact W.
  - exists u, 6%nat. split; [exact U|right; reflexivity].
Qed.
(** ** Limits *)
Lemma beyond_53 : exists v w a b r s st, is_whole v a /\ is_whole w b /\ builtin_call $"+" [P 1 (OVar v); P 2 (OVar w)] s st (Val (Some r)) st /\ is_whole r a /\ b = 1.
Proof.
  exists (vdouble (f_of_z (2 ^ 53))), (vdouble (f_of_z 1)), (2 ^ 53), 1, (vdouble (f_of_z (2 ^ 53))), main_sid, fresh.
  assert (W : is_whole (vdouble (f_of_z (2 ^ 53))) (2 ^ 53)).
  { exists (f_of_z (2 ^ 53)). split; [apply vdouble_is|]. assert (E : f_of_z (2 ^ 53) = S754_finite false (2 ^ 52) 1) by (vm_compute; reflexivity). rewrite E. vm_compute. split; [split; congruence|reflexivity]. }
  split; [exact W|]. split; [exists (f_of_z 1); split; [apply vdouble_is|apply of_z_whole; reflexivity]|]. split; [|split; [exact W|reflexivity]].
  apply (builtin_calls 0 _ BAdd); [vm_compute; reflexivity|vm_compute; reflexivity|discriminate].
Qed.
Lemma inf_not_equal : exists v, is_dbl v (S754_infinity false) /\ decides $"==" v v False /\ decides $"<=" v v True.
Proof.
  exists (vdouble (S754_infinity false)). split; [apply vdouble_is|]. split.
  - apply (eq_decides _ _ false); [intros st; reflexivity|]. split; [discriminate|tauto].
  - intros i j s st. exists true. split; [tauto|]. apply (cmp_calls _ BLe $"<=" v_le); [vm_compute; reflexivity|reflexivity|intros; reflexivity].
Qed.
Lemma minus_zero : forall i s st, exists v, is_whole v 0 /\ builtin_pure $"str" [P i (OVar v)] s st (fun r => is_str r $"-0.000000").
Proof.
  intros i s st. exists (vdouble (S754_zero true)). split; [exists (S754_zero true); split; [apply vdouble_is|reflexivity]|].
  apply (pure_intro _ BToString) with (r := vstr $"-0.000000"); [vm_compute; reflexivity|reflexivity|apply vstr_is].
Qed.

(** Defining functions with defn and gdefn. *)
Require Import String Ascii List ZArith Bool Lia.
Require Import PArith FMapPositive.
From Verif Require Import Base CppString Num Token Value State Show ScopeOps Builtins Table Eval LispTop SpecRun SpecVal SpecNum SpecList SpecForm SpecCalc SpecIo SpecLang
  BuiltinProofs RelProofs FrameProofs RunProofs NumProofs StrProofs ListProofs FormProofs ClosProofs CalcProofs.
Import ListNotations.

Lemma expr_list_as : forall st p es, expr_list st p es -> (let? o := deref p in
  match o with OVar v => if is_list v then list_value v st else Undef UBBadCast | OList l => get_vec l st | _ => Undef UBBadCast end) = Val es.
Proof.
  intros st p es [(i & l & -> & V)|(i & v & l & -> & T & VL & V)]; cbn [deref obind].
  - unfold get_vec. unfold vec_at in V. rewrite V. reflexivity.
  - unfold is_list, is_ty. rewrite T. cbn [ltype_eqb]. apply (list_value_list _ _ l). repeat split; assumption.
Qed.
Lemma join_syms : forall st fs names acc, Forall2 expr_sym fs names -> acc <> [] -> join_out $" " (fun p => ptr_str p st) fs acc = Val (acc ++ concat (map (fun n => $" " ++ n) names)).
Proof.
  intros st fs names acc H. revert acc. induction H as [|f n fs names (i & v & -> & S) H IH]; intros acc N; cbn [join_out map concat]; [rewrite app_nil_r; reflexivity|].
  rewrite (ptr_str_sym _ _ _ _ S). cbn [obind]. destruct acc as [|c acc]; [congruence|]. rewrite IH by (cbn; discriminate). f_equal. rewrite <- !app_assoc. reflexivity.
Qed.
Lemma formals_text : forall st p names, parameters st p names -> Forall (fun n => n <> []) names -> exists t, formal_args_string p st = Val t /\
  match t with [] => [] | _ => $" " end ++ t = concat (map (fun n => $" " ++ n) names).
Proof.
  intros st p names (fs & XL & SY) NE. unfold formal_args_string. pose proof (expr_list_as _ _ _ XL) as E. destruct (deref p) as [o|?|?|?|] eqn:D; try discriminate E.
  cbn [obind] in *. rewrite E. cbn [obind]. destruct SY as [|f n fs names (i & v & -> & S) SY]; cbn [join_out]; [exists []; split; reflexivity|].
  rewrite (ptr_str_sym _ _ _ _ S). cbn [obind]. inversion NE as [|x y NE1 NE2]; subst. cbn [app]. destruct n as [|c n]; [congruence|]. rewrite (join_syms _ _ _ _ SY) by discriminate.
  eexists. split; [reflexivity|]. reflexivity.
Qed.
Lemma index_at : forall st g name p, var_at st g name = Some p -> scope_index g name st = (Val p, st).
Proof.
  intros st g name p V. unfold var_at in V. destruct (scope_at st g) as [sc|] eqn:H; [|discriminate]. unfold scope_index, bind, reads, lift. rewrite (get_at _ _ _ H). rewrite lookup_find, V. reflexivity.
Qed.
Lemma global_function_at : forall st g name i v f, var_at st g name = Some (P i (OVar v)) -> is_fn v f -> global_function g name st = (Val f, st).
Proof. intros st g name i v f V [T VL]. unfold global_function. unfold bind at 1. rewrite (index_at _ _ _ _ V). unfold bind, lift, reads. cbn [vref vref_obj]. unfold function_value, is_ty. rewrite T. cbn [ltype_eqb]. rewrite VL. reflexivity. Qed.
Lemma mod_at : forall st s sc f, scope_at st s = Some sc -> mod_scope s f st = (Val tt, with_scopes (PositiveMap.add s (f sc) (st_scopes st)) st).
Proof. intros st s sc f H. unfold mod_scope, bind, reads, lift. rewrite (get_at _ _ _ H). reflexivity. Qed.

(** ** The comment before a definition *)
Lemma tok_neq : forall a b, tk_start a <> tk_start b -> token_eqb a b = false.
Proof. intros a b N. unfold token_eqb. destruct (Z.eqb_spec (tk_start a) (tk_start b)); [contradiction|]. rewrite !andb_false_r. reflexivity. Qed.
Lemma tok_refl : forall a, token_eqb a a = true.
Proof. intro a. unfold token_eqb. rewrite !Z.eqb_refl. replace (str_eqb (token_to_string a) (token_to_string a)) with true; [reflexivity|]. symmetry. apply str_eqb_eq. reflexivity. Qed.
Lemma prev_found : forall a prev x y b, NoDup (map tk_start (a ++ x :: y :: b)) -> prev_token_in (a ++ x :: y :: b) prev y = Some x.
Proof.
  induction a as [|z a IH]; intros prev x y b ND; cbn [app map prev_token_in] in *; inversion ND as [|u v N1 N2]; subst.
  - rewrite tok_neq. 2:{ intro Q. apply N1. left. symmetry. exact Q. } rewrite tok_refl. reflexivity.
  - rewrite tok_neq; [apply IH; exact N2|]. intro Q. apply N1. rewrite Q. apply in_map, in_or_app. right. right. left. reflexivity.
Qed.
Lemma doc_of : forall st s sc i w, scope_at st s = Some sc -> exists r, token_before_defn (P i (OVar w)) s st = Val r /\
  documents (s_tokens sc) (v_tok w) (match r with Some t => match tk_type t with TkComment => token_to_string t | _ => [] end | None => [] end).
Proof.
  intros st s sc i w H. unfold token_before_defn. cbn [deref]. unfold previous_token. rewrite (get_at _ _ _ H). eexists. split; [reflexivity|]. split; [intros ->; reflexivity|].
  intros a c o k n b T ND E. rewrite T. cbn beta iota. rewrite E in *.
  replace (a ++ c :: o :: k :: n :: b) with ((a ++ [c; o]) ++ k :: n :: b) in * by (rewrite <- app_assoc; reflexivity). rewrite (prev_found _ _ _ _ _ ND).
  replace ((a ++ [c; o]) ++ k :: n :: b) with ((a ++ [c]) ++ o :: k :: n :: b) in * by (rewrite <- !app_assoc; reflexivity). rewrite (prev_found _ _ _ _ _ ND).
  replace ((a ++ [c]) ++ o :: k :: n :: b) with (a ++ c :: o :: k :: n :: b) in * by (rewrite <- !app_assoc; reflexivity). rewrite (prev_found _ _ _ _ _ ND).
  split; [|intro N; destruct (tk_type c); congruence]. intros x TC TV. rewrite TC. unfold token_to_string. rewrite TC, TV. reflexivity.
Qed.

Lemma find_scopes : forall st s x u, scope_at (with_scopes (PositiveMap.add s x (st_scopes st)) st) u = if Pos.eqb u s then Some x else scope_at st u.
Proof. intros st s x u. unfold scope_at. cbn [st_scopes with_scopes]. apply find_add. Qed.
Lemma var_same : forall st s sc sc' u n, scope_at st s = Some sc -> s_vars sc' = s_vars sc -> var_at (with_scopes (PositiveMap.add s sc' (st_scopes st)) st) u n = var_at st u n.
Proof.
  intros st s sc sc' u n H V. unfold var_at. rewrite find_scopes. destruct (Pos.eqb_spec u s) as [-> |N]; [rewrite H, V; reflexivity|reflexivity].
Qed.
Lemma builtin_code_fn : forall name f b, builtin_fn name = Some f -> builtin_code name = Some b -> fn_code f = CBuiltin b.
Proof. intros name f b F C. destruct (builtin_code_found _ _ C) as (f' & F' & FC). congruence. Qed.
Lemma call_fn : forall n f b args s st, fn_code f = CBuiltin b -> r_call (run (S n)) f args s st = call_builtin (run n) b args s st.
Proof. intros n f b args s st C. cbn [run step r_call]. unfold call. rewrite C. reflexivity. Qed.

Lemma defn_defines : forall name0 name1 st s sc p tok a0 a1 a2 i w name names, (name0, name1) = ($"defn", $"def") \/ (name0, name1) = ($"gdefn", $"gdef") ->
  form st p name0 tok [a0; a1; a2] -> standard st s name0 -> global_word st s $"fn" -> global_word st s name1 -> scope_at st s = Some sc -> scope_exists st (s_global sc) ->
  a0 = P i (OVar w) -> is_sym w name -> parameters st a1 names -> Forall (fun n => n <> []) names -> plain a1 -> plain a2 ->
  exists v fn st2 st', evals p s st (Val (Some v)) st' /\ is_fn v fn /\ fn_code fn = CClosure name (s_module sc) [a1; a2] s /\ fn_sp fn = false /\ fn_ex fn = false /\
    fn_sig fn = signature name names /\ documents (s_tokens sc) (v_tok w) (fn_doc fn) /\
    described (noted st s tok) st2 s (fn_sig fn, fn_doc fn) /\ var_becomes st2 st' (if list_eq_dec ascii_dec name0 $"defn" then s else s_global sc) name v.
Proof.
  intros name0 name1 st s sc p tok a0 a1 a2 i w name names NB F SD GF GD H XG -> SY PA NE PL1 PL2.
  set (w0 := noted st s tok).
  assert (H0 : exists sc0, scope_at w0 s = Some sc0 /\ s_global sc0 = s_global sc /\ s_module sc0 = s_module sc /\ s_tokens sc0 = s_tokens sc).
  { unfold w0. rewrite noted_scope. destruct tok; [rewrite Pos.eqb_refl, H; cbn; eexists; repeat split|exists sc; auto]. }
  destruct H0 as (sc0 & H0 & G0 & M0 & T0).
  assert (V0 : forall u n, var_at w0 u n = var_at st u n). { intros u n. unfold w0, noted. destruct tok; [|reflexivity]. rewrite H. apply (var_same _ _ sc); [exact H|reflexivity]. }
  assert (PA0 : parameters w0 a1 names). { destruct PA as (fs & XL & Q). exists fs. split; [|exact Q]. unfold w0, noted. destruct tok; [rewrite H|]; exact XL. }
  destruct GF as (sc1 & fi & fv & ff & H1 & GF & FF & FB). assert (sc1 = sc) by congruence. subst sc1.
  destruct GD as (sc1 & di & dv & df & H1' & GD & DF & DB). assert (sc1 = sc) by congruence. subst sc1.
  destruct (doc_of w0 s sc0 i w H0) as (r & DT & DD). set (doc := match r with Some t => match tk_type t with TkComment => token_to_string t | _ => [] end | None => [] end) in *.
  destruct (formals_text w0 a1 names PA0 NE) as (fa & FA & FT).
  set (d := (signature name names, doc)).
  set (w1 := with_scopes (PositiveMap.add s (set_userdoc (Some d) sc0) (st_scopes w0)) w0).
  assert (H1w : scope_at w1 s = Some (set_userdoc (Some d) sc0)) by (unfold w1; rewrite find_scopes, Pos.eqb_refl; reflexivity).
  set (w2 := with_scopes (PositiveMap.add s (set_userdata (Some name) (set_userdoc (Some d) sc0)) (st_scopes w1)) w1).
  assert (H2w : scope_at w2 s = Some (set_userdata (Some name) (set_userdoc (Some d) sc0))) by (unfold w2; rewrite find_scopes, Pos.eqb_refl; reflexivity).
  set (w3 := with_scopes (PositiveMap.add s (set_userdata None (set_userdata (Some name) (set_userdoc (Some d) sc0))) (st_scopes w2)) w2).
  assert (H3w : scope_at w3 s = Some (set_userdata None (set_userdoc (Some d) sc0))) by (unfold w3; rewrite find_scopes, Pos.eqb_refl; reflexivity).
  assert (V1 : forall u n, var_at w1 u n = var_at st u n) by (intros; unfold w1; rewrite (var_same _ _ sc0) by (exact H0 || reflexivity); apply V0).
  assert (V2 : forall u n, var_at w2 u n = var_at st u n) by (intros; unfold w2; erewrite var_same by (exact H1w || reflexivity); apply V1).
  assert (V3 : forall u n, var_at w3 u n = var_at st u n) by (intros; unfold w3; erewrite var_same by (exact H2w || reflexivity); apply V2).
  set (fn := MkFn (CClosure name (s_module sc0) [a1; a2] s) (fst d) (snd d) false false false (s_module sc0)). set (v := mkv TFun (OFun fn)).
  set (w4 := with_nid (Pos.succ (st_nid w3)) w3). set (tgt := if list_eq_dec ascii_dec name0 $"defn" then s else s_global sc).
  assert (XT : exists tsc, scope_at w4 tgt = Some tsc).
  { change (exists tsc, scope_at w3 tgt = Some tsc). unfold tgt. destruct (list_eq_dec ascii_dec name0 $"defn"); [eexists; exact H3w|].
    unfold w3. rewrite find_scopes. destruct (Pos.eqb_spec (s_global sc) s) as [E|E]; [eexists; reflexivity|]. unfold w2. rewrite find_scopes. destruct (Pos.eqb_spec (s_global sc) s); [contradiction|].
    unfold w1. rewrite find_scopes. destruct (Pos.eqb_spec (s_global sc) s); [contradiction|]. destruct XG as (gs & XG). exists gs. unfold w0. rewrite noted_scope.
    destruct tok; [|exact XG]. destruct (Pos.eqb_spec (s_global sc) s); [contradiction|exact XG]. }
  destruct XT as (tsc & XT). destruct (set_becomes w4 tgt name v tsc XT) as [K1 K2]. set (w6 := snd (scope_set _ _ _ _)) in *.
  exists v, fn, w3, w6. split.
  - assert (PLS : Forall plain [P i (OVar w); a1; a2]). { apply Forall_cons; [right; destruct SY as [-> _]; split; discriminate|]. apply Forall_cons; [exact PL1|]. apply Forall_cons; [exact PL2|apply Forall_nil]. }
    assert (RUN : forall nm, (nm = $"def" \/ nm = $"gdef") -> nm = name1 -> defn_helper (run 3) nm [P i (OVar w); a1; a2] s w0 = (Val (Some v), w6)).
    { intros nm _ ->. unfold defn_helper. unfold bind at 1, check_args. cbn [length Nat.eqb negb]. unfold ret at 1.
      unfold bind at 1, update_doc. unfold bind at 1, arg at 1. cbn [nth_error]. unfold ret at 1. unfold bind at 1, reads at 1. rewrite DT.
      unfold bind at 1, arg at 1. cbn [nth_error]. unfold ret at 1. unfold bind at 1, reads at 1. rewrite (ptr_str_sym _ _ _ _ SY).
      unfold bind at 1, reads at 1. rewrite FA. rewrite (mod_at _ _ _ _ H0).
      replace ($"(" ++ name ++ match fa with [] => [] | _ :: _ => $" " end ++ fa ++ $")") with (signature name names)
        by (unfold signature; rewrite <- FT, <- !app_assoc; reflexivity).
      change (with_scopes _ w0) with w1.
      unfold bind at 1, global_of, bind at 1, reads at 1. rewrite (get_at _ _ _ H1w). unfold ret at 1. change (s_global (set_userdoc (Some d) sc0)) with (s_global sc0). rewrite G0.
      unfold bind at 1. rewrite (global_function_at w1 (s_global sc) $"fn" fi fv ff) by (rewrite ?V1; assumption).
      unfold bind at 1, arg at 1. cbn [nth_error]. unfold ret at 1. unfold bind at 1, eval_arg_if_needed at 1, bind at 1, lift at 1. cbn [deref obj_is_list vref_obj]. unfold ret at 1.
      unfold bind at 1, some_var at 1, ret at 1. unfold bind at 1, reads at 1. rewrite (var_str_sym _ _ _ SY). unfold bind at 1. rewrite (mod_at _ _ _ _ H1w). change (with_scopes _ w1) with w2.
      unfold bind at 1, arg at 1. cbn [nth_error]. unfold ret at 1. unfold bind at 1, arg at 1. cbn [nth_error]. unfold ret at 1.
      unfold bind at 1. rewrite (call_fn _ ff BFn) by (eapply builtin_code_fn; [exact FB|vm_compute; reflexivity]). cbn [call_builtin].
      assert (BF : b_fn [a1; a2] s w2 = (Val (Some v), w2)) by (unfold b_fn, bind, reads; rewrite (get_at _ _ _ H2w); reflexivity). rewrite BF.
      unfold bind at 1. rewrite (mod_at _ _ _ _ H2w). change (with_scopes _ w2) with w3. unfold bind at 1.
      rewrite (global_function_at w3 (s_global sc) name1 di dv df) by (rewrite ?V3; assumption).
      unfold bind at 1, some_var at 1, ret at 1. unfold bind at 1, new_var_ptr at 1, new_ptr at 1.
      change (with_nid (Pos.succ (st_nid w3)) w3) with w4.
      assert (DH : forall nm, def_helper (run 2) nm tgt [P i (OVar w); P (st_nid w3) (OVar v)] s w4 = (Val (Some v), w6)).
      { intro nm. unfold def_helper. unfold bind at 1, check_args. cbn [length Nat.eqb negb]. unfold ret at 1. unfold bind at 1, arg at 1. cbn [nth_error]. unfold ret at 1.
        unfold bind at 1, eval_arg_if_needed at 1, bind at 1, lift at 1. cbn [deref obj_is_list vref_obj]. unfold ret at 1. unfold bind at 1, some_var at 1, ret at 1.
        unfold is_ty. assert (SY' := SY). destruct SY as [T1 T2]. rewrite T1. tys. cbn [orb]. unfold bind at 1, arg at 1. cbn [nth_error]. unfold ret at 1.
        unfold bind at 1. assert (EV : r_eval (run 2) (P (st_nid w3) (OVar v)) s w4 = (Val (Some v), w4)) by reflexivity. rewrite EV. unfold bind at 1, some_var at 1, ret at 1. unfold bind at 1, new_var_ptr, new_ptr.
        unfold bind at 1, reads at 1. rewrite (var_str_sym _ _ _ SY'). unfold bind. rewrite K1. reflexivity. }
      destruct NB as [Q|Q]; injection Q as -> ->.
      - rewrite (call_fn _ df BDef) by (eapply builtin_code_fn; [exact DB|vm_compute; reflexivity]). cbn [call_builtin]. apply DH.
      - rewrite (call_fn _ df BGDef) by (eapply builtin_code_fn; [exact DB|vm_compute; reflexivity]). cbn [call_builtin]. unfold b_gdef, bind at 1, global_of, bind at 1, reads.
        assert (H4w : scope_at w4 s = Some (set_userdata None (set_userdoc (Some d) sc0))) by exact H3w. rewrite (get_at _ _ _ H4w). unfold ret at 1.
        change (s_global (set_userdata None (set_userdoc (Some d) sc0))) with (s_global sc0). rewrite G0. apply DH. }
    destruct NB as [Q|Q]; injection Q as -> ->.
    + apply (special_builtin _ _ _ _ _ _ BDefn F SD); [vm_compute; reflexivity|vm_compute; reflexivity|exact PLS|]. exists 3%nat. split; [|discriminate]. cbn [call_builtin]. apply RUN; auto.
    + apply (special_builtin _ _ _ _ _ _ BGDefn F SD); [vm_compute; reflexivity|vm_compute; reflexivity|exact PLS|]. exists 3%nat. split; [|discriminate]. cbn [call_builtin]. apply RUN; auto.
  - split; [split; reflexivity|]. split; [unfold fn; rewrite M0; reflexivity|]. split; [reflexivity|]. split; [reflexivity|]. split; [reflexivity|]. split; [rewrite <- T0; exact DD|].
    split; [|exact K2]. split; [exists sc0; split; [exact H0|exact H3w]|].
    split; [|repeat split; reflexivity]. intros u N. unfold w3, w2, w1. rewrite !find_scopes. destruct (Pos.eqb_spec u s); [contradiction|reflexivity].
Qed.

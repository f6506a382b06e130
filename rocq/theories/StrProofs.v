(** The builtin functions on texts. *)
Require Import String Ascii List ZArith Bool Lia.
Require Import ZifyBool ZifyNat ZifyN.
Require Import PArith FMapPositive.
From Verif Require Import Base CppString Num Token Value State Show ScopeOps Builtins Table Eval LispTop
  SpecLex SpecRun SpecVal SpecText ClassifyProofs RunProofs TextProofs BuiltinProofs.
Import ListNotations.

Lemma stoi_printed : forall z, (-2147483648 <= z <= 2147483647)%Z -> stoi_pos (z_to_string z) = Val (z, length (z_to_string z)).
Proof.
  intros z H. rewrite (stoi_int_text _ z (z_to_string_int_text z)).
  assert (R : in_int z = true) by (unfold in_int, int_min, int_max; lia). rewrite R. reflexivity.
Qed.
Lemma str_of_int : forall z v i s st, is_int v z -> builtin_pure $"str" [P i (OVar v)] s st (fun r => is_str r (z_to_string z)).
Proof.
  intros z v i s st H. apply pure_intro with (b := BToString) (r := vstr (z_to_string z)); [vm_compute; reflexivity| |apply vstr_is].
  cbn [call_builtin]. unfold b_str, check_args, args_str, argv, arg. cbn [length Nat.eqb negb nth_error].
  unfold bind, ret, reads, lift. rewrite (ptr_str_int i v z st H). cbn [vref vref_obj]. destruct H as [H1 H2].
  rewrite (is_ty_of v _ _ H1). reflexivity.
Qed.
Lemma parse_of_str : forall z w j s st, (-2147483648 <= z <= 2147483647)%Z -> is_str w (z_to_string z) ->
  call_builtin (run 0) BParseInteger [P j (OVar w)] s st = (Val (Some (vint z)), st).
Proof.
  intros z w j s st B H. cbn [call_builtin]. unfold b_parseint, check_args, argc, arg, catch_all, try_catch. cbn [length Nat.eqb negb nth_error].
  unfold bind, ret, reads, lift. cbn [var_of_ptr var_of_obj]. rewrite (var_str_str w _ st H), (stoi_printed z B). cbn [snd fst].
  rewrite Nat.ltb_irrefl. reflexivity.
Qed.
Lemma int_of_str : forall z w j s st, (-2147483648 <= z <= 2147483647)%Z -> is_str w (z_to_string z) ->
  call_builtin (run 0) BToInt [P j (OVar w)] s st = (Val (Some (vint z)), st).
Proof.
  intros z w j s st B H. rewrite <- (parse_of_str z w j s st B H). cbn [call_builtin]. unfold b_int, check_args, argc, arg.
  cbn [length Nat.eqb negb nth_error]. unfold bind at 1 2 3. unfold ret, reads, lift. cbn [var_of_ptr var_of_obj].
  destruct H as [H1 H2]. rewrite !(is_ty_of w _ _ H1). reflexivity.
Qed.
Lemma int_text_roundtrip : forall z v i s st, (-2147483648 <= z <= 2147483647)%Z -> is_int v z ->
  exists t, builtin_pure $"str" [P i (OVar v)] s st (fun r => is_str r t) /\ int_text t z /\
    forall w j, is_str w t ->
      builtin_pure $"int" [P j (OVar w)] s st (fun r => is_int r z) /\
      builtin_pure $"parse-integer" [P j (OVar w)] s st (fun r => is_int r z).
Proof.
  intros z v i s st B H. exists (z_to_string z). split; [apply str_of_int; exact H|]. split; [apply z_to_string_int_text|].
  intros w j W. split; (eapply pure_intro; [vm_compute; reflexivity| |apply vint_is]).
  - apply int_of_str; assumption. - apply parse_of_str; assumption.
Qed.
Lemma call_deterministic : forall name args s st o1 st1 o2 st2,
  builtin_call name args s st o1 st1 -> builtin_call name args s st o2 st2 -> o1 = o2 /\ st1 = st2.
Proof.
  intros name args s st o1 st1 o2 st2 (f & F & n & H1 & N1) (f' & F' & m & H2 & N2). rewrite F in F'. injection F' as <-.
  eapply ends_det; [apply mono_call|exists n; eauto|exists m; eauto].
Qed.
Lemma pure_deterministic : forall name args s st Q1 Q2, builtin_pure name args s st Q1 -> builtin_pure name args s st Q2 ->
  exists r, Q1 r /\ Q2 r.
Proof.
  intros name args s st Q1 Q2 (r1 & C1 & K1) (r2 & C2 & K2). destruct (call_deterministic _ _ _ _ _ _ _ _ C1 C2) as [E _].
  injection E as ->. eauto.
Qed.
Lemma str_injective : forall z1 z2 v1 v2 i1 i2 s st t, is_int v1 z1 -> is_int v2 z2 ->
  builtin_pure $"str" [P i1 (OVar v1)] s st (fun r => is_str r t) ->
  builtin_pure $"str" [P i2 (OVar v2)] s st (fun r => is_str r t) -> z1 = z2.
Proof.
  intros z1 z2 v1 v2 i1 i2 s st t H1 H2 B1 B2.
  destruct (pure_deterministic _ _ _ _ _ _ B1 (str_of_int z1 v1 i1 s st H1)) as (r1 & [_ E1] & [_ E2]).
  destruct (pure_deterministic _ _ _ _ _ _ B2 (str_of_int z2 v2 i2 s st H2)) as (r2 & [_ E3] & [_ E4]).
  assert (E : z_to_string z1 = z_to_string z2) by congruence.
  pose proof (z_to_string_int_text z1) as T1. rewrite E in T1.
  exact (int_text_value _ _ _ T1 (z_to_string_int_text z2)).
Qed.

(** ** trim, replace, search, slice *)
Lemma trim_builtin : forall v t i s st, is_str v t -> forallb is_7bit t = true ->
  builtin_pure $"trim" [P i (OVar v)] s st (fun r => exists u, is_str r u /\ trimmed t u).
Proof.
  intros v t i s st H B. destruct (Trim_spec t B) as (u & E & T). apply pure_intro with (b := BTrim) (r := vstr u).
  - vm_compute; reflexivity.
  - cbn [call_builtin]. unfold b_trim, b_strfun, wrap1, check_args, argv, arg. cbn [length Nat.eqb negb nth_error].
    unfold bind, ret, reads, lift. cbn [vref vref_obj]. rewrite (var_str_str v t st H), E. reflexivity.
  - exists u. split; [apply vstr_is|exact T].
Qed.
Lemma replace_call : forall v1 t v2 n v3 r i1 i2 i3 s st, is_str v1 t -> is_str v2 n -> is_str v3 r ->
  call_builtin (run 0) BReplace [P i1 (OVar v1); P i2 (OVar v2); P i3 (OVar v3)] s st = (Val (Some (vstr (Replace t n r))), st).
Proof.
  intros v1 t v2 n v3 r i1 i2 i3 s st H1 H2 H3. cbn [call_builtin]. unfold b_replace, check_args, args_str, arg. cbn [length Nat.eqb negb nth_error].
  unfold bind, ret, reads, lift. rewrite (ptr_str_str i1 v1 t st H1), (ptr_str_str i2 v2 n st H2), (ptr_str_str i3 v3 r st H3). reflexivity.
Qed.
Lemma replace_builtin : forall v1 t v2 n v3 r i1 i2 i3 s st, is_str v1 t -> is_str v2 n -> is_str v3 r ->
  n <> [] -> ~ In c_nul n -> ~ In c_nul r ->
  builtin_pure $"replace" [P i1 (OVar v1); P i2 (OVar v2); P i3 (OVar v3)] s st (fun x => exists u, is_str x u /\ replaced n r t u).
Proof.
  intros v1 t v2 n v3 r i1 i2 i3 s st H1 H2 H3 N N1 N2. eapply pure_intro; [vm_compute; reflexivity|apply (replace_call v1 t v2 n v3 r); assumption|].
  exists (Replace t n r). split; [apply vstr_is|apply Replace_spec; assumption].
Qed.
Lemma replace_empty_builtin : forall v1 t v2 v3 r i1 i2 i3 s st, is_str v1 t -> is_str v2 [] -> is_str v3 r ->
  builtin_pure $"replace" [P i1 (OVar v1); P i2 (OVar v2); P i3 (OVar v3)] s st (fun x => is_str x t).
Proof.
  intros v1 t v2 v3 r i1 i2 i3 s st H1 H2 H3. eapply pure_intro; [vm_compute; reflexivity|apply (replace_call v1 t v2 [] v3 r); assumption|].
  rewrite Replace_empty. apply vstr_is.
Qed.
Lemma wrap32_id : forall z, (-2147483648 <= z < 2147483648)%Z -> wrap32 z = z.
Proof. intros z H. unfold wrap32. rewrite Z.mod_small; lia. Qed.
Lemma occurs_at_app : forall n a t q, occurs_at n (a ++ t) (length a + q) <-> occurs_at n t q.
Proof.
  intros n a t q. induction a as [|c a IH]; [reflexivity|]. cbn [app length Nat.add]. rewrite occurs_at_S. exact IH.
Qed.
Lemma find_from_spec : forall n t from, (from <= length t)%nat ->
  match find_from n t from with
  | Some p => (from <= p)%nat /\ occurs_at n t p /\ forall q, (from <= q)%nat -> occurs_at n t q -> (p <= q)%nat
  | None => forall q, (from <= q)%nat -> ~ occurs_at n t q
  end.
Proof.
  intros n t from L. assert (S1 : exists a b, t = a ++ b /\ from = length a).
  { exists (firstn from t), (skipn from t). rewrite firstn_skipn, firstn_length. split; [reflexivity|lia]. }
  destruct S1 as (a & b & -> & ->). rewrite find_from_app. destruct (find n b) as [p|] eqn:F; cbn [option_map].
  - apply find_first in F. destruct F as [O M]. split; [lia|]. split; [apply occurs_at_app; exact O|].
    intros q Lq Oq. replace q with (length a + (q - length a))%nat in Oq by lia. apply -> occurs_at_app in Oq. apply M in Oq. lia.
  - apply find_none in F. intros q Lq Oq. apply F. exists (q - length a)%nat.
    replace q with (length a + (q - length a))%nat in Oq by lia. apply -> occurs_at_app in Oq. exact Oq.
Qed.
Lemma found_ofpos : forall n t from, (from <= length t)%nat -> (Z.of_nat (length t) < 2147483648)%Z ->
  found_at n t from (match find_from n t from with Some p => wrap32 (Z.of_nat p) | None => (-1)%Z end).
Proof.
  intros n t from L B. pose proof (find_from_spec n t from L) as H. destruct (find_from n t from) as [p|].
  - left. exists p. destruct H as (H1 & H2 & H3). split; [|auto]. apply occurs_at_length in H2. apply wrap32_id. lia.
  - right. auto.
Qed.
Lemma search_builtin : forall v1 n v2 t i1 i2 s st, is_str v1 n -> is_str v2 t -> (Z.of_nat (length t) < 2147483648)%Z ->
  builtin_pure $"search" [P i1 (OVar v1); P i2 (OVar v2)] s st (fun x => exists z, is_int x z /\ found_at n t 0 z).
Proof.
  intros v1 n v2 t i1 i2 s st H1 H2 B. eapply pure_intro; [vm_compute; reflexivity| |].
  - cbn [call_builtin]. unfold b_search, check_opt_args, argc, argv, arg. cbn [length Nat.leb Nat.ltb orb nth_error].
    unfold bind, ret, reads, lift. cbn [vref vref_obj var_of_ptr var_of_obj]. rewrite (var_str_str v1 n st H1).
    rewrite (is_ty_of v2 _ _ (proj1 H2)).
    change (ltype_eqb TString TString) with true. cbv beta iota. rewrite (var_str_str v2 t st H2). reflexivity.
  - eexists. split; [apply vint_is|]. pose proof (found_ofpos n t 0 ltac:(lia) B) as F. unfold find_from in F.
    cbn [Nat.ltb Nat.leb length skipn] in F. destruct (find n t); exact F.
Qed.
Lemma search_from_builtin : forall v1 n v2 t v3 pos i1 i2 i3 s st, is_str v1 n -> is_str v2 t -> is_int v3 (Z.of_nat pos) ->
  (pos <= length t)%nat -> (Z.of_nat (length t) < 2147483648)%Z ->
  builtin_pure $"search" [P i1 (OVar v1); P i2 (OVar v2); P i3 (OVar v3)] s st (fun x => exists z, is_int x z /\ found_at n t pos z).
Proof.
  intros v1 n v2 t v3 pos i1 i2 i3 s st H1 H2 H3 L B. eapply pure_intro; [vm_compute; reflexivity| |].
  - cbn [call_builtin]. unfold b_search, check_opt_args, argc, argv, arg. cbn [length Nat.leb Nat.ltb orb nth_error].
    unfold bind, ret, reads, lift. cbn [vref vref_obj var_of_ptr var_of_obj]. rewrite (var_str_str v1 n st H1).
    rewrite (to_int_int v3 _ st H3). rewrite (is_ty_of v2 _ _ (proj1 H2)).
    change (ltype_eqb TString TString) with true. cbv beta iota. rewrite (var_str_str v2 t st H2).
    replace (Z.of_nat pos =? -1)%Z with false by lia. change (-1 =? -1)%Z with true. cbv beta iota. unfold find_z.
    replace ((Z.of_nat pos <? 0)%Z || (Z.of_nat (length t) <? Z.of_nat pos)%Z) with false by lia. rewrite Nat2Z.id. reflexivity.
  - eexists. split; [apply vint_is|]. apply found_ofpos; assumption.
Qed.
Lemma slice_builtin : forall v1 t v2 pos v3 len i1 i2 i3 s st, is_str v1 t -> is_int v2 (Z.of_nat pos) -> is_int v3 len ->
  (pos <= length t)%nat ->
  builtin_pure $"slice" [P i1 (OVar v1); P i2 (OVar v2); P i3 (OVar v3)] s st (fun x => exists a u b, is_str x u /\
    t = a ++ u ++ b /\ length a = pos /\
    ((0 <= len)%Z -> Z.of_nat (length u) = Z.min len (Z.of_nat (length t) - Z.of_nat pos)) /\ ((len < 0)%Z -> b = [])).
Proof.
  intros v1 t v2 pos v3 len i1 i2 i3 s st H1 H2 H3 L. eapply pure_intro; [vm_compute; reflexivity| |].
  - cbn [call_builtin]. unfold b_slice, check_args, argc, arg. cbn [length Nat.eqb negb nth_error].
    unfold bind, ret, reads, lift. cbn [var_of_ptr var_of_obj]. rewrite (var_str_str v1 t st H1), (to_int_int v2 _ st H2), (to_int_int v3 _ st H3).
    unfold substr_z. replace ((Z.of_nat pos <? 0)%Z || (Z.of_nat (length t) <? Z.of_nat pos)%Z) with false by lia.
    unfold substr, substr_from. rewrite Nat2Z.id. destruct (Nat.ltb_spec (length t) pos); [lia|].
    instantiate (1 := vstr (if (0 <=? len)%Z then firstn (Z.to_nat (Z.min len (Z.of_nat (length t)))) (skipn pos t) else skipn pos t)).
    destruct (0 <=? len)%Z; reflexivity.
  - assert (L1 : length (firstn pos t) = pos) by (rewrite firstn_length; lia).
    destruct (Z.leb_spec 0 len).
    + exists (firstn pos t), (firstn (Z.to_nat (Z.min len (Z.of_nat (length t)))) (skipn pos t)), (skipn (Z.to_nat (Z.min len (Z.of_nat (length t)))) (skipn pos t)).
      split; [apply vstr_is|]. split; [rewrite !firstn_skipn; reflexivity|]. split; [exact L1|]. split; [|lia].
      intros _. rewrite firstn_length, skipn_length. lia.
    + exists (firstn pos t), (skipn pos t), []. split; [apply vstr_is|]. rewrite app_nil_r, firstn_skipn. split; [reflexivity|]. split; [exact L1|]. split; [lia|reflexivity].
Qed.
Lemma slice_splits : forall v t p u1 u2 s st i1 i2 i3 j1 j2 j3 z1 z2 z3 z4, is_str v t -> (p <= length t)%nat ->
  is_int z1 0 -> is_int z2 (Z.of_nat p) -> is_int z3 (Z.of_nat p) -> is_int z4 (-1) ->
  builtin_pure $"slice" [P i1 (OVar v); P i2 (OVar z1); P i3 (OVar z2)] s st (fun x => is_str x u1) ->
  builtin_pure $"slice" [P j1 (OVar v); P j2 (OVar z3); P j3 (OVar z4)] s st (fun x => is_str x u2) ->
  u1 ++ u2 = t /\ length u1 = p.
Proof.
  intros v t p u1 u2 s st i1 i2 i3 j1 j2 j3 z1 z2 z3 z4 H L Z1 Z2 Z3 Z4 B1 B2.
  pose proof (slice_builtin v t z1 0 z2 (Z.of_nat p) i1 i2 i3 s st H Z1 Z2 ltac:(lia)) as C1.
  pose proof (slice_builtin v t z3 p z4 (-1) j1 j2 j3 s st H Z3 Z4 L) as C2.
  destruct (pure_deterministic _ _ _ _ _ _ B1 C1) as (r1 & [_ E1] & a1 & x1 & b1 & [_ X1] & T1 & A1 & W1 & _).
  destruct (pure_deterministic _ _ _ _ _ _ B2 C2) as (r2 & [_ E2] & a2 & x2 & b2 & [_ X2] & T2 & A2 & _ & W2).
  assert (x1 = u1) by congruence. assert (x2 = u2) by congruence. subst x1 x2.
  destruct a1; [|discriminate]. cbn [app] in T1. specialize (W1 ltac:(lia)). specialize (W2 ltac:(lia)). subst b2.
  rewrite app_nil_r in T2. assert (LU : length u1 = p) by lia. split; [|exact LU].
  rewrite T2 in T1. destruct (app_same_length _ a2 u1 u2 b1) as [-> ->]; [lia|exact T1|]. congruence.
Qed.

(** ** format *)
Lemma ptrs_str_texts : forall ps ts st, Forall2 text_arg ps ts -> ptrs_str ps st = Val ts.
Proof.
  intros ps ts st H. induction H as [|p t ps ts (i & v & -> & V) H IH]; [reflexivity|]. cbn [ptrs_str].
  rewrite (ptr_str_str i v t st V). cbn [obind]. rewrite IH. reflexivity.
Qed.
Lemma Forall2_len : forall A B (Q : A -> B -> Prop) a b, Forall2 Q a b -> length a = length b.
Proof. intros A B Q a b H. induction H; cbn; congruence. Qed.
Lemma format_call : forall ps t ts s st, Forall2 text_arg ps (t :: ts) -> (length ts <= 5)%nat ->
  call_builtin (run 0) BFormat ps s st = (match Format t ts with
    | Val u => Val (Some (vstr u)) | Throw e => Throw e | Undef u => Undef u | Unmod w => Unmod w | NoFuel => NoFuel end, st).
Proof.
  intros ps t ts s st H L. cbn [call_builtin]. unfold b_format, check_opt_args.
  assert (LL : length ps = S (length ts)) by (apply Forall2_len in H; exact H). rewrite LL.
  replace ((S (length ts) <? 1)%nat || (6 <? S (length ts))%nat) with false by lia.
  unfold bind, ret, reads, lift. rewrite (ptrs_str_texts ps _ st H). destruct (Format t ts); reflexivity.
Qed.
Lemma format_builtin : forall args ts ps s st, Forall2 text_arg args (template ps :: ts) -> (length ts <= 5)%nat ->
  Forall piece_ok ps -> Forall (fun a => ~ In c_open a /\ a <> NULL_STRING) ts ->
  (forall k, In k (skipn (length ts) digits5) -> ~ has_hole k ps) ->
  builtin_pure $"format" args s st (fun r => is_str r (template (fill_all digits5 ts ps))).
Proof.
  intros args ts ps s st A L F T H. eapply pure_intro; [vm_compute; reflexivity| |apply vstr_is].
  rewrite (format_call args (template ps) ts s st A L). rewrite Format_full; auto.
Qed.
Lemma format_short_builtin : forall args ts ps s st k, Forall2 text_arg args (template ps :: ts) -> (length ts <= 5)%nat ->
  Forall piece_ok ps -> Forall (fun a => ~ In c_open a /\ a <> NULL_STRING) ts ->
  In k (skipn (length ts) digits5) -> has_hole k ps ->
  builtin_call $"format" args s st (Throw (ELispBase ($"Not enough items for format string: " ++ template ps))) st.
Proof.
  intros args ts ps s st k A L F T I H. eapply (builtin_calls 0); [vm_compute; reflexivity| |discriminate].
  rewrite (format_call args (template ps) ts s st A L). rewrite (Format_short ps ts k); auto.
Qed.

(** ** Lines *)
Lemma readline_call : forall s st, call_builtin (run 0) BReadLine [] s st =
  (Val (Some (vstr (hd [] (st_in st)))), match st_in st with [] => st | _ :: ls => with_in ls st end).
Proof.
  intros s st. cbn [call_builtin]. unfold b_readline, wrap0, check_args. cbn [length Nat.eqb negb]. unfold bind, ret, read_line.
  destruct (st_in st); reflexivity.
Qed.
Lemma read_lines : forall s n st, exists ts st', read_times s n st ts st' /\ ts = firstn n (st_in st ++ repeat [] n).
Proof.
  intros s. induction n as [|n IH]; intros st; [exists [], st; split; [constructor|reflexivity]|].
  destruct (IH (match st_in st with [] => st | _ :: ls => with_in ls st end)) as (ts & st' & R & E).
  exists (hd [] (st_in st) :: ts), st'. split.
  - eapply rt_S; [|apply vstr_is|exact R]. eapply (builtin_calls 0); [vm_compute; reflexivity|apply readline_call|discriminate].
  - rewrite E. destruct (st_in st) as [|l ls] eqn:S1; cbn [hd app repeat firstn]; [rewrite S1; reflexivity|].
    f_equal. cbn [st_in with_in]. clear. revert ls. assert (G : forall ls k, (n <= length ls + k)%nat -> firstn n (ls ++ repeat (@nil ascii) k) = firstn n (ls ++ repeat [] n)).
    { induction n as [|n IH]; intros ls k L; [reflexivity|]. destruct ls as [|l ls]; cbn [app length] in *.
      - destruct k as [|k]; [lia|]. cbn [repeat firstn]. f_equal. apply (IH [] k). cbn. lia.
      - cbn [firstn]. f_equal. rewrite (IH ls k) by lia. symmetry. apply IH. lia. }
    intros ls. symmetry. apply (G ls (S n)). lia.
Qed.
Lemma reader_lines_spec : forall t, t <> [] -> exists ls, reader_lines t = Val ls /\ ls <> [] /\ join_lines ls = t /\ Forall is_line ls.
Proof. intros t N. unfold reader_lines. destruct t; [congruence|]. apply Split_lines. Qed.

(** ** Witnesses *)
Lemma trim_8bit : exists v t i s st, is_str v t /\ builtin_call $"trim" [P i (OVar v)] s st (Undef UBCtype) st.
Proof.
  exists (vstr [ascii_of_nat 200]), [ascii_of_nat 200], 1%positive, main_sid, (init_state [] [] (Env (fun _ => true) None [])).
  split; [apply vstr_is|]. eapply (builtin_calls 0); [vm_compute; reflexivity| |discriminate]. reflexivity.
Qed.
Lemma replaced_reappears : exists n s s', replaced n [] s s' /\ occurs n s'.
Proof.
  exists $"ab", $"aabb", $"ab". split.
  - pose proof (Replace_spec $"aabb" $"ab" []) as H. change (Replace $"aabb" $"ab" []) with $"ab" in H.
    apply H; [discriminate|cbn; intuition discriminate|cbn; tauto].
  - exists 0%nat, [], []. split; reflexivity.
Qed.
Lemma slice_he : forall s st, builtin_call $"slice" [P 1 (OVar (vstr $"hello")); P 1 (OVar (vint 0)); P 1 (OVar (vint 2))] s st (Val (Some (vstr $"he"))) st.
Proof. intros s st. eapply (builtin_calls 0); [vm_compute; reflexivity|reflexivity|discriminate]. Qed.
Lemma slice_llo : forall s st, builtin_call $"slice" [P 1 (OVar (vstr $"hello")); P 1 (OVar (vint 2)); P 1 (OVar (vint (-1)))] s st (Val (Some (vstr $"llo"))) st.
Proof. intros s st. eapply (builtin_calls 0); [vm_compute; reflexivity|reflexivity|discriminate]. Qed.
Lemma format_braces : forall s st,
  builtin_pure $"format" [P 1 (OVar (vstr $"{0}-{1}")); P 2 (OVar (vstr $"{1}")); P 3 (OVar (vstr $"x"))] s st
    (fun r => is_str r $"x-{1}") /\
  builtin_call $"format" [P 1 (OVar (vstr $"{0}")); P 2 (OVar (vstr $"{1,z}"))] s st (Throw EInvalidArg) st.
Proof.
  intros s st. split.
  - eapply pure_intro; [vm_compute; reflexivity|reflexivity|apply vstr_is].
  - eapply (builtin_calls 0); [vm_compute; reflexivity|reflexivity|discriminate].
Qed.
Lemma trimmed_again : forall t r r', trimmed t r -> trimmed r r' -> r' = r.
Proof. intros t r r' H1 H2. eapply trimmed_unique; [exact H2|eapply trimmed_idem; exact H1]. Qed.

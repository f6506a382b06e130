(** Files, printing and conversions. *)
Require Import String Ascii List ZArith Bool Lia.
Require Import PArith FMapPositive.
From Verif Require Import Base CppString Num Token Value State Show ScopeOps Builtins Table Eval LispTop SpecLex SpecRun SpecVal SpecNum SpecList SpecForm SpecIo
  BuiltinProofs TextProofs StrProofs ListProofs FormProofs.
Import ListNotations.

(** ** Files *)
Lemma cstr_cut : forall n m, ~ In c_nul n -> cstr (n ++ c_nul :: m) = n.
Proof.
  intros n m. induction n as [|c n IH]; intros H; [reflexivity|]. cbn [app cstr].
  destruct (Ascii.eqb_spec c c_nul) as [->|N]; [destruct H; left; reflexivity|]. f_equal. apply IH. intros K. apply H. right. exact K.
Qed.
Lemma system_cstr : forall n m, system_name n m -> cstr n = m.
Proof. intros n m H. inversion H; subst; [apply cstr_id; assumption|apply cstr_cut; assumption]. Qed.
Lemma file_lookup_at : forall n st, file_lookup n st = file_at st n.
Proof.
  intros n st. unfold file_lookup, file_at. generalize (st_files st). intros fs. induction fs as [|[k t] fs IH]; [reflexivity|].
  cbn [List.find fst]. destruct (str_eqb k n) eqn:E; destruct (list_eq_dec ascii_dec n k) as [->|N].
  - reflexivity.
  - apply str_eqb_eq in E. congruence.
  - rewrite str_eqb_refl in E. discriminate.
  - exact IH.
Qed.
Lemma file_write_ok : forall v n m w t i j s st, is_str v n -> is_str w t -> system_name n m -> writable st m ->
  exists r st', builtin_call $"File-WriteAllText" [P i (OVar v); P j (OVar w)] s st (Val (Some r)) st' /\ is_bool r true /\ file_becomes st st' m t.
Proof.
  intros v n m w t i j s st V W N C. eexists. eexists. split; [|split].
  - apply (builtin_calls 0 _ BFileWrite); [vm_compute; reflexivity| |discriminate].
    cbn [call_builtin]. unfold b_filewrite, check_args, argv, arg, bind, lift, reads, ret, some. cbn [length Nat.eqb negb nth_error vref vref_obj].
    rewrite (var_str_str _ _ _ V), (var_str_str _ _ _ W), (system_cstr _ _ N). unfold writable in C. rewrite C. reflexivity.
  - apply vbool_is.
  - unfold file_becomes, file_at. cbn [st_files with_files st_scopes st_vecs st_dicts st_out st_in st_env st_dbg List.find fst].
    repeat match goal with |- _ /\ _ => split end; try reflexivity.
    + destruct (list_eq_dec ascii_dec m m); [reflexivity|congruence].
    + intros k K. destruct (list_eq_dec ascii_dec k m) as [->|_]; [congruence|reflexivity].
Qed.
Lemma file_write_no : forall v n m w t i j s st, is_str v n -> is_str w t -> system_name n m -> ~ writable st m ->
  builtin_pure $"File-WriteAllText" [P i (OVar v); P j (OVar w)] s st (fun r => is_bool r false).
Proof.
  intros v n m w t i j s st V W N C. apply (pure_intro _ BFileWrite) with (r := vbool false); [vm_compute; reflexivity| |apply vbool_is].
  cbn [call_builtin]. unfold b_filewrite, check_args, argv, arg, bind, lift, reads, ret, some. cbn [length Nat.eqb negb nth_error vref vref_obj].
  rewrite (var_str_str _ _ _ V), (var_str_str _ _ _ W), (system_cstr _ _ N). unfold writable in C.
  destruct (e_canwrite (st_env st) m); [congruence|reflexivity].
Qed.
Lemma file_read_ok : forall v n m i s st, is_str v n -> system_name n m ->
  builtin_pure $"File-ReadAllText" [P i (OVar v)] s st (fun r => is_str r (match file_at st m with Some t => t | None => [] end)).
Proof.
  intros v n m i s st V N. eapply (pure_intro _ BFileRead); [vm_compute; reflexivity| |apply vstr_is].
  cbn [call_builtin]. unfold b_fileread, read_file, check_args, argv, arg, bind, lift, reads, ret, some. cbn [length Nat.eqb negb nth_error vref vref_obj].
  rewrite (var_str_str _ _ _ V), (system_cstr _ _ N), file_lookup_at. reflexivity.
Qed.
Lemma file_exists_ok : forall v n m i s st, is_str v n -> system_name n m ->
  builtin_pure $"File-Exists" [P i (OVar v)] s st (fun r => exists b, is_bool r b /\ (b = true <-> exists t, file_at st m = Some t)).
Proof.
  intros v n m i s st V N. eapply (pure_intro _ BFileExists); [vm_compute; reflexivity| |].
  - cbn [call_builtin]. unfold b_fileexists, file_exists, check_args, argv, arg, bind, lift, reads, ret, some. cbn [length Nat.eqb negb nth_error vref vref_obj].
    rewrite (var_str_str _ _ _ V), (system_cstr _ _ N), file_lookup_at. reflexivity.
  - eexists. split; [apply vbool_is|]. destruct (file_at st m) as [t|]; split; intros H; try reflexivity; try discriminate;
      [exists t; reflexivity|destruct H; discriminate].
Qed.
Lemma file_back : forall v n m w t i j k s st, is_str v n -> is_str w t -> system_name n m -> writable st m ->
  exists r st', builtin_call $"File-WriteAllText" [P i (OVar v); P j (OVar w)] s st (Val (Some r)) st' /\
    builtin_pure $"File-ReadAllText" [P k (OVar v)] s st' (fun r => is_str r t).
Proof.
  intros v n m w t i j k s st V W N C. destruct (file_write_ok v n m w t i j s st V W N C) as (r & st' & B & _ & F).
  exists r, st'. split; [exact B|]. destruct F as [F _]. pose proof (file_read_ok v n m k s st' V N) as R. rewrite F in R. exact R.
Qed.
Lemma file_missing : exists s st1 st2 v r, is_str v $"f" /\ file_at st1 $"f" = Some [] /\ file_at st2 $"f" = None /\
  builtin_call $"File-ReadAllText" [P 1 (OVar v)] s st1 (Val (Some r)) st1 /\ builtin_call $"File-ReadAllText" [P 1 (OVar v)] s st2 (Val (Some r)) st2.
Proof.
  exists main_sid, (init_state [] [($"f", [])] (Env (fun _ => true) None [])), fresh, (vstr $"f"), (vstr []).
  split; [apply vstr_is|]. split; [reflexivity|]. split; [reflexivity|].
  split; (apply (builtin_calls 0 _ BFileRead); [vm_compute; reflexivity|vm_compute; reflexivity|discriminate]).
Qed.

(** ** Printing *)
Lemma str_text : forall i v s st t, v_ty v <> TNative -> builtin_pure $"str" [P i (OVar v)] s st (fun r => is_str r t) -> ptr_str (P i (OVar v)) st = Val t.
Proof.
  intros i v s st t N (r & B & [R1 R2]). apply (builtin_code_call _ BToString) in B; [|vm_compute; reflexivity]. destruct B as (n & B & _).
  cbn [call_builtin] in B. unfold b_str, args_str, check_args, argv, arg, bind, lift, reads, ret, some in B. cbn [length Nat.eqb negb nth_error vref vref_obj] in B.
  destruct (ptr_str (P i (OVar v)) st) as [x| | | |]; try discriminate.
  assert (T : is_ty TNative v = false) by (unfold is_ty; destruct (v_ty v); try reflexivity; congruence). rewrite T in B. injection B as <-.
  cbn [v_val vstr mkv] in R2. congruence.
Qed.
Lemma shows_text : forall s st p t, shows s st p t -> ptr_str p st = Val t.
Proof. intros s st p t (i & v & -> & N & B). eapply str_text; eassumption. Qed.
Lemma join_acc : forall st ps ts acc, Forall2 (fun p t => ptr_str p st = Val t) ps ts ->
  join_out $" " (fun p => ptr_str p st) ps acc = Val (match acc with [] => line_of ts | _ => blanks_between (acc :: ts) end).
Proof.
  intros st ps ts acc H. revert acc. induction H as [|p t ps ts A _ IH]; intros acc; cbn [join_out].
  - destruct acc; reflexivity.
  - rewrite A. cbn [obind]. rewrite IH. destruct acc as [|c acc].
    + cbn [app]. destruct t as [|d t]; reflexivity.
    + change ((c :: acc) ++ $" ") with (c :: (acc ++ $" ")). cbn [app blanks_between]. do 2 f_equal. rewrite <- app_assoc.
      destruct ts as [|u ts]; cbn [blanks_between app]; [reflexivity|]. rewrite <- app_assoc. reflexivity.
Qed.
Lemma Forall2_imp : forall A B (Q R : A -> B -> Prop), (forall a b, Q a b -> R a b) -> forall xs ys, Forall2 Q xs ys -> Forall2 R xs ys.
Proof. intros A B Q R H xs ys K. induction K; constructor; auto. Qed.
Lemma repr_ok : forall s st ps ts, scope_exists st s -> var_at st s $"###traceon###" = None -> Forall2 (shows s st) ps ts ->
  string_repr ps s st = (Val (line_of ts), st).
Proof.
  intros s st ps ts X T H. unfold string_repr, bind, reads.
  rewrite (join_acc st ps ts []) by (eapply Forall2_imp; [|exact H]; apply shows_text). cbv iota beta.
  rewrite (find_var _ _ _ X). change k_traceon with ($"###traceon###"). rewrite T. reflexivity.
Qed.
Lemma print_ok : forall s st ps ts, scope_exists st s -> var_at st s $"###traceon###" = None -> Forall2 (shows s st) ps ts ->
  exists r, builtin_call $"print" ps s st (Val (Some r)) (written_out st (line_of ts)) /\ is_str r (line_of ts).
Proof.
  intros s st ps ts X T H. eexists. split; [|apply vstr_is]. apply (builtin_calls 0 _ BPrint); [vm_compute; reflexivity| |discriminate].
  cbn [call_builtin]. unfold b_print, bind. rewrite (repr_ok s st ps ts X T H). reflexivity.
Qed.
Lemma println_ok : forall s st ps ts, scope_exists st s -> var_at st s $"###traceon###" = None -> Forall2 (shows s st) ps ts ->
  exists r, builtin_call $"println" ps s st (Val (Some r)) (written_out st (line_of ts ++ [c_nl])) /\ is_str r (line_of ts).
Proof.
  intros s st ps ts X T H. eexists. split; [|apply vstr_is]. apply (builtin_calls 0 _ BPrintLn); [vm_compute; reflexivity| |discriminate].
  cbn [call_builtin]. unfold b_println, bind. rewrite (repr_ok s st ps ts X T H). reflexivity.
Qed.
Lemma var_some : forall st s n p, var_at st s n = Some p -> exists sc, scope_at st s = Some sc /\ vars_find n (s_vars sc) = Some p.
Proof.
  intros st s n p H. unfold var_at in H. destruct (scope_at st s) as [sc|] eqn:E; [|discriminate]. exists sc. split; [reflexivity|]. rewrite lookup_find. exact H.
Qed.
Lemma repr_collects : forall s st ps ts b, collects st s b -> Forall2 (shows s st) ps ts ->
  exists st1, string_repr ps s st = (Val (line_of ts), st1) /\ collected st st1 s (b ++ line_of ts) [].
Proof.
  intros s st ps ts b [(i & o & T) (j & B)] H. unfold string_repr, bind, reads.
  rewrite (join_acc st ps ts []) by (eapply Forall2_imp; [|exact H]; apply shows_text). cbv iota beta.
  destruct (var_some _ _ _ _ T) as (sc & S & _). destruct (var_some _ _ _ _ B) as (sc' & S' & F). assert (sc' = sc) by congruence. subst sc'.
  assert (X : scope_exists st s) by (exists sc; exact S).
  rewrite (find_var _ _ _ X). change k_traceon with ($"###traceon###"). rewrite T. unfold scope_index, bind, reads. rewrite (get_at _ _ _ S). change k_tracebuffer with ($"###tracebuffer###"). rewrite F.
  unfold ret. cbv iota beta. assert (PS : ptr_str (P j (OString b)) st = Val b) by reflexivity. rewrite PS. cbv iota beta. unfold new_ptr.
  unfold scope_set, mod_scope, bind, reads. set (st1 := with_nid _ st). assert (S1 : scope_at st1 s = Some sc) by exact S. rewrite (get_at _ _ _ S1). unfold put_scope.
  eexists. split; [reflexivity|]. set (sc' := set_vars _ _).
  assert (G : forall u, scope_at (with_scopes (PositiveMap.add s sc' (st_scopes st1)) st1) u = if Pos.eqb u s then Some sc' else scope_at st u) by (intro u; rewrite find_scope_add; reflexivity).
  unfold collected. rewrite app_nil_r. repeat match goal with |- _ /\ _ => split end; try reflexivity.
  - eexists. unfold var_at. rewrite G, Pos.eqb_refl. subst sc'. cbn [s_vars set_vars]. rewrite lookup_set. destruct (list_eq_dec ascii_dec _ _) as [_|N]; [reflexivity|]. exfalso. apply N. reflexivity.
  - intros u n N. unfold var_at. rewrite G. destruct (Pos.eqb_spec u s) as [->|Q]; [|reflexivity]. rewrite S. subst sc'. cbn [s_vars set_vars].
    rewrite lookup_set. destruct (list_eq_dec ascii_dec n _) as [->|]; [congruence|reflexivity].
  - intros u Q. rewrite G. destruct (Pos.eqb_spec u s); [contradiction|reflexivity].
  - intros a c A C. rewrite G, Pos.eqb_refl in C. assert (a = sc) by congruence. subst a. injection C as <-. subst sc'. repeat split.
Qed.
Lemma collected_out : forall st st1 s b t, collected st st1 s b [] -> collected st (with_out (st_out st1 ++ t) st1) s b t.
Proof.
  intros st st1 s b t (A1 & A2 & A3 & A4 & A5 & A6 & A7 & A8 & A9 & A10 & A11). rewrite app_nil_r in A5. unfold collected. rewrite A5.
  repeat match goal with |- _ /\ _ => split end; assumption || reflexivity.
Qed.
Lemma print_collects : forall s st ps ts b, collects st s b -> Forall2 (shows s st) ps ts ->
  (exists r st', builtin_call $"print" ps s st (Val (Some r)) st' /\ is_str r (line_of ts) /\ collected st st' s (b ++ line_of ts) (line_of ts)) /\
  (exists r st', builtin_call $"println" ps s st (Val (Some r)) st' /\ is_str r (line_of ts) /\ collected st st' s (b ++ line_of ts) (line_of ts ++ [c_nl])).
Proof.
  intros s st ps ts b C H. destruct (repr_collects s st ps ts b C H) as (st1 & E & K). split.
  - eexists. eexists. split; [|split; [apply vstr_is|apply collected_out; exact K]]. apply (builtin_calls 0 _ BPrint); [vm_compute; reflexivity| |discriminate].
    cbn [call_builtin]. unfold b_print, bind. rewrite E. reflexivity.
  - eexists. eexists. split; [|split; [apply vstr_is|apply collected_out; exact K]]. apply (builtin_calls 0 _ BPrintLn); [vm_compute; reflexivity| |discriminate].
    cbn [call_builtin]. unfold b_println, bind. rewrite E. reflexivity.
Qed.
Lemma index_missing : forall st s n, scope_exists st s -> var_at st s n = None -> exists st', scope_index s n st = (Val PNull, st').
Proof.
  intros st s n [sc S] V. unfold scope_index, bind, reads. rewrite (get_at _ _ _ S). rewrite lookup_find. unfold var_at in V. rewrite S in V. rewrite V.
  unfold scope_set, mod_scope, bind, reads. rewrite (get_at _ _ _ S). eexists. reflexivity.
Qed.
Lemma trace_crash : forall s st ps ts i o, scope_exists st s -> var_at st s $"###traceon###" = Some (P i o) -> var_at st s $"###tracebuffer###" = None -> Forall2 (shows s st) ps ts ->
  exists st', builtin_call $"print" ps s st (Undef UBNullDeref) st'.
Proof.
  intros s st ps ts i o X T B H. destruct (index_missing st s $"###tracebuffer###" X B) as (st' & E). exists st'.
  apply (builtin_calls 0 _ BPrint); [vm_compute; reflexivity| |discriminate]. cbn [call_builtin]. unfold b_print, string_repr, bind, reads.
  rewrite (join_acc st ps ts []) by (eapply Forall2_imp; [|exact H]; apply shows_text). cbv iota beta.
  rewrite (find_var _ _ _ X). change k_traceon with ($"###traceon###"). rewrite T. change k_tracebuffer with ($"###tracebuffer###"). rewrite E. reflexivity.
Qed.
Lemma gettrace_collects : forall s st b, collects st s b -> builtin_pure $"gettrace" [] s st (fun r => is_str r b).
Proof.
  intros s st b [_ (j & B)]. apply (pure_intro _ BGetTracePrint) with (r := vstr b); [vm_compute; reflexivity| |apply vstr_is].
  destruct (var_some _ _ _ _ B) as (sc & S & F). cbn [call_builtin]. unfold b_gettrace, scope_index, bind, reads. rewrite (get_at _ _ _ S). change k_tracebuffer with ($"###tracebuffer###"). rewrite F. reflexivity.
Qed.
Lemma gettrace_crash : forall s st, scope_exists st s -> var_at st s $"###tracebuffer###" = None -> exists st', builtin_call $"gettrace" [] s st (Undef UBNullDeref) st'.
Proof.
  intros s st X B. destruct (index_missing st s $"###tracebuffer###" X B) as (st' & E). exists st'.
  apply (builtin_calls 0 _ BGetTracePrint); [vm_compute; reflexivity| |discriminate]. cbn [call_builtin]. unfold b_gettrace, bind. change k_tracebuffer with ($"###tracebuffer###"). rewrite E. reflexivity.
Qed.
Lemma fresh_collects : collects fresh main_sid [].
Proof. split; [exists 4%positive, (OBool false)|exists 3%positive]; vm_compute; reflexivity. Qed.
Lemma traced_function : exists st', runs false false $"(do (defn f () (do (trace #t) (print 1))) (f))" [] fresh (Undef UBNullDeref) st'.
Proof. eexists. exists 60%nat. split; [vm_compute; reflexivity|discriminate]. Qed.
Lemma untraced_buffer : exists v st', runs false false $"(do (print 1) (print 2) (gettrace))" [] fresh (Val (Some v)) st' /\ is_str v $"12" /\ st_out st' = $"12".
Proof. eexists. eexists. split; [exists 60%nat; split; [vm_compute; reflexivity|discriminate]|]. split; [split; reflexivity|reflexivity]. Qed.

(** ** parse-integer *)
Lemma drop_split : forall t, exists ws, t = ws ++ drop_space t /\ forallb is_space ws = true.
Proof.
  induction t as [|c t IH]; [exists []; split; reflexivity|]. cbn [drop_space]. destruct (is_space c) eqn:E; [|exists []; split; reflexivity].
  destruct IH as (ws & -> & W). exists (c :: ws). split; [|cbn; rewrite E; exact W]. cbn [app]. f_equal.
  clear E. assert (D : drop_space (ws ++ drop_space t) = drop_space t \/ True) by (right; exact Logic.I). clear D.
  assert (G : forall l, drop_space (drop_space l) = drop_space l).
  { induction l as [|d l IH]; [reflexivity|]. cbn [drop_space]. destruct (is_space d) eqn:K; [exact IH|]. cbn [drop_space]. rewrite K. reflexivity. }
  assert (F : forall us l, forallb is_space us = true -> drop_space (us ++ l) = drop_space l).
  { induction us as [|d us IH]; intros l U; [reflexivity|]. cbn [forallb] in U. apply andb_true_iff in U. destruct U as [U1 U2]. cbn [app drop_space]. rewrite U1. apply IH. exact U2. }
  rewrite (F _ _ W), G. reflexivity.
Qed.
Lemma drop_blanks : forall ws l, forallb is_space ws = true -> drop_space (ws ++ l) = drop_space l.
Proof. induction ws as [|d us IH]; intros l U; [reflexivity|]. cbn [forallb] in U. apply andb_true_iff in U. destruct U as [U1 U2]. cbn [app drop_space]. rewrite U1. apply IH. exact U2. Qed.
Lemma skip_drop : forall t, skipn (skip_space_count t) t = drop_space t.
Proof.
  intros t. destruct (drop_split t) as (ws & E & _). unfold skip_space_count. rewrite E at 1 3. rewrite app_length.
  replace (length ws + length (drop_space t) - length (drop_space t))%nat with (length ws) by lia. rewrite skipn_app, skipn_all, Nat.sub_diag. reflexivity.
Qed.
Lemma digits_full : forall t acc n v m, take_digits t acc n = (v, m) -> (n + length t <= m)%nat -> forallb is_digit t = true /\ v = dec_value acc t /\ m = (n + length t)%nat.
Proof.
  induction t as [|c t IH]; intros acc n v m H L; cbn [take_digits] in H.
  - injection H as <- <-. cbn. repeat split. lia.
  - destruct (is_digit c) eqn:E.
    + apply IH in H; [|cbn [length] in L; lia]. destruct H as (A & B & C). cbn [forallb dec_value length]. rewrite E, A. split; [reflexivity|]. split; [exact B|lia].
    + injection H as <- <-. cbn [length] in L. lia.
Qed.
Lemma no_lead : forall w z, int_text w z -> drop_space w = w.
Proof.
  intros w z H. inversion H as [ds Hne Hd E1 E2|ds Hne Hd E1 E2|ds Hne Hd E1 E2]; subst; try reflexivity.
  destruct w as [|c w]; [reflexivity|]. cbn [forallb] in Hd. apply andb_true_iff in Hd. destruct Hd as [Hc _].
  destruct (ClassifyProofs.digit_props c Hc) as (h & _). cbn [drop_space]. rewrite h. reflexivity.
Qed.
Lemma stoi_blanks : forall ws w, forallb is_space ws = true -> drop_space w = w ->
  stoi_pos (ws ++ w) = match stoi_pos w with Val (z, n) => Val (z, (length ws + n)%nat) | x => x end.
Proof.
  intros ws w W D. unfold stoi_pos. rewrite !skip_drop. rewrite drop_blanks by exact W. rewrite D.
  unfold skip_space_count. rewrite drop_blanks by exact W. rewrite D, app_length.
  destruct (take_sign w) as [sg sn]. destruct (take_digits (skipn sn w) 0 0) as [v dn]. destruct dn; [reflexivity|].
  destruct (in_int (sg * v)); [|reflexivity]. do 2 f_equal. lia.
Qed.
Lemma fits_in : forall z, fits z <-> in_int z = true.
Proof. intros z. unfold fits, in_int, int_min, int_max. rewrite andb_true_iff, !Z.leb_le. lia. Qed.
Lemma stoi_text : forall t z, integer_text t z -> stoi_pos t = Val (z, length t).
Proof.
  intros t z (ws & w & -> & W & T & F). rewrite stoi_blanks; [|exact W|exact (no_lead w z T)].
  rewrite (ClassifyProofs.stoi_int_text w z T). apply fits_in in F. rewrite F, app_length. reflexivity.
Qed.
Lemma text_stoi : forall t z n, stoi_pos t = Val (z, n) -> (length t <= n)%nat -> integer_text t z.
Proof.
  intros t z n H L. destruct (drop_split t) as (ws & E & W). exists ws, (drop_space t). split; [exact E|]. split; [exact W|].
  unfold stoi_pos in H. rewrite skip_drop in H. assert (K : skip_space_count t = length ws) by (unfold skip_space_count; rewrite E at 1; rewrite app_length; lia).
  rewrite K in H. assert (LT : length t = (length ws + length (drop_space t))%nat) by (rewrite E at 1; apply app_length). rewrite LT in L. clear E K LT W. revert H L.
  generalize (drop_space t). intros w H L. unfold take_sign in H. destruct w as [|c w]; [discriminate|].
  destruct (Ascii.eqb_spec c c_minus) as [->|N1]; [|destruct (Ascii.eqb_spec c c_plus) as [->|N2]].
  - cbn [skipn] in H. destruct (take_digits w 0 0) as [v dn] eqn:D. destruct dn as [|dn]; [discriminate|]. replace (-1 * v)%Z with (- v)%Z in H by lia.
    destruct (in_int (- v)) eqn:I; [|discriminate]. injection H as <- <-. cbn [length] in L.
    destruct (digits_full _ _ _ _ _ D ltac:(lia)) as (A & B & C). apply fits_in in I. subst v.
    split; [|exact I]. apply it_minus; [|exact A]. intros ->. cbn in C. discriminate.
  - cbn [skipn] in H. destruct (take_digits w 0 0) as [v dn] eqn:D. destruct dn as [|dn]; [discriminate|]. rewrite Z.mul_1_l in H.
    destruct (in_int v) eqn:I; [|discriminate]. injection H as <- <-. cbn [length] in L.
    destruct (digits_full _ _ _ _ _ D ltac:(lia)) as (A & B & C). apply fits_in in I. subst v.
    split; [|exact I]. apply it_plus; [|exact A]. intros ->. cbn in C. discriminate.
  - cbn [skipn] in H. destruct (take_digits (c :: w) 0 0) as [v dn] eqn:D. destruct dn as [|dn]; [discriminate|]. rewrite Z.mul_1_l in H.
    destruct (in_int v) eqn:I; [|discriminate]. injection H as <- <-.
    destruct (digits_full _ _ _ _ _ D ltac:(lia)) as (A & B & C). apply fits_in in I. subst v.
    split; [|exact I]. apply it_pos; [discriminate|exact A].
Qed.
Lemma stoi_no_ub : forall t, (exists r, stoi_pos t = Val r) \/ (exists e, stoi_pos t = Throw e).
Proof.
  intros t. unfold stoi_pos. destruct (take_sign _) as [sg sn]. destruct (take_digits _ 0 0) as [v [|dn]]; [right; eexists; reflexivity|].
  destruct (in_int _); [left|right]; eexists; reflexivity.
Qed.
Lemma parseint_text : forall v t z i s st, is_str v t -> integer_text t z -> builtin_pure $"parse-integer" [P i (OVar v)] s st (fun r => is_int r z).
Proof.
  intros v t z i s st V T. apply (pure_intro _ BParseInteger) with (r := vint z); [vm_compute; reflexivity| |apply vint_is].
  cbn [call_builtin]. unfold b_parseint, check_args, catch_all, try_catch, argc, arg, bind, lift, reads, ret, some. cbn [length Nat.eqb negb nth_error var_of_ptr var_of_obj].
  rewrite (var_str_str _ _ _ V), (stoi_text t z T). cbn [fst snd]. rewrite Nat.ltb_irrefl. reflexivity.
Qed.
Lemma parseint_junk : forall v t i s st, is_str v t -> (forall z, ~ integer_text t z) -> builtin_pure $"parse-integer" [P i (OVar v)] s st is_undef.
Proof.
  intros v t i s st V T. apply (pure_intro _ BParseInteger) with (r := vundef); [vm_compute; reflexivity| |reflexivity].
  cbn [call_builtin]. unfold b_parseint, check_args, catch_all, try_catch, argc, arg, bind, lift, reads, ret, some, throw. cbn [length Nat.eqb negb nth_error var_of_ptr var_of_obj].
  rewrite (var_str_str _ _ _ V). destruct (stoi_no_ub t) as [[[z n] E]|[e E]]; rewrite E; [|reflexivity].
  cbn [fst snd]. destruct (n <? length t)%nat eqn:L; [reflexivity|]. apply Nat.ltb_ge in L. destruct (T z (text_stoi t z n E L)).
Qed.

Lemma int_of_text : forall v t i s st (Q : variant -> Prop), is_str v t -> builtin_pure $"parse-integer" [P i (OVar v)] s st Q -> builtin_pure $"int" [P i (OVar v)] s st Q.
Proof.
  intros v t i s st Q V (r & B & R). apply (builtin_code_call _ BParseInteger) in B; [|vm_compute; reflexivity]. destruct B as (n & B & _).
  apply (pure_intro _ BToInt) with (r := r); [vm_compute; reflexivity| |exact R].
  cbn [call_builtin] in B |- *. unfold b_int, check_args, argc, arg, bind, lift, reads, ret. cbn [length Nat.eqb negb nth_error var_of_ptr var_of_obj].
  destruct V as [V1 V2]. unfold is_ty. rewrite V1. exact B.
Qed.
Lemma int_of_int : forall v z i s st, is_int v z -> builtin_pure $"int" [P i (OVar v)] s st (fun r => is_int r z).
Proof.
  intros v z i s st V. apply (pure_intro _ BToInt) with (r := vint z); [vm_compute; reflexivity| |apply vint_is].
  cbn [call_builtin]. unfold b_int, check_args, argc, arg, bind, lift, reads, ret, some. cbn [length Nat.eqb negb nth_error var_of_ptr var_of_obj].
  pose proof V as [V1 _]. unfold is_ty at 1. rewrite V1. change (ltype_eqb TInt TInt) with true. cbv beta iota. rewrite (int_value_int _ _ _ V). reflexivity.
Qed.
Lemma int_of_bool : forall v (b : bool) i s st, is_bool v b -> builtin_pure $"int" [P i (OVar v)] s st (fun r => is_int r (if b then 1 else 0)).
Proof.
  intros v b i s st V. eapply (pure_intro _ BToInt); [vm_compute; reflexivity| |apply vint_is].
  cbn [call_builtin]. unfold b_int, check_args, argc, arg, bind, lift, reads, ret, some. cbn [length Nat.eqb negb nth_error var_of_ptr var_of_obj].
  pose proof V as [V1 _]. unfold is_ty. rewrite V1. change (ltype_eqb TBool TBool) with true. change (ltype_eqb TBool TInt) with false. change (ltype_eqb TBool TDouble) with false. change (ltype_eqb TBool TString) with false. cbv beta iota. rewrite (bool_value_bool _ _ _ V). reflexivity.
Qed.
Lemma int_of_rest : forall v i s st, v_ty v <> TInt -> v_ty v <> TDouble -> v_ty v <> TString -> v_ty v <> TBool ->
  builtin_pure $"int" [P i (OVar v)] s st (fun r => is_int r 0) /\ builtin_pure $"float" [P i (OVar v)] s st (fun r => is_int r 0).
Proof.
  intros v i s st N1 N2 N3 N4.
  assert (T1 : is_ty TInt v = false) by (unfold is_ty; destruct (v_ty v); try reflexivity; congruence).
  assert (T2 : is_ty TDouble v = false) by (unfold is_ty; destruct (v_ty v); try reflexivity; congruence).
  assert (T3 : is_ty TString v = false) by (unfold is_ty; destruct (v_ty v); try reflexivity; congruence).
  assert (T4 : is_ty TBool v = false) by (unfold is_ty; destruct (v_ty v); try reflexivity; congruence).
  split.
  - apply (pure_intro _ BToInt) with (r := vint 0); [vm_compute; reflexivity| |apply vint_is].
    cbn [call_builtin]. unfold b_int, check_args, argc, arg, bind, lift, reads, ret, some. cbn [length Nat.eqb negb nth_error var_of_ptr var_of_obj].
    rewrite T1, T2, T3, T4. reflexivity.
  - apply (pure_intro _ BToFloat) with (r := vint 0); [vm_compute; reflexivity| |apply vint_is].
    cbn [call_builtin]. unfold b_float, check_args, argc, arg, bind, lift, reads, ret, some. cbn [length Nat.eqb negb nth_error var_of_ptr var_of_obj].
    rewrite T1, T2, T3, T4. reflexivity.
Qed.

(** Properties C56 (files), C57 (printing and the trace) and C58 (conversions to integers). *)
Require Import String Ascii List ZArith Bool Lia.
Require Import PArith FMapPositive.
From Verif Require Import Base CppString Num Token Value State Builtins Table Eval LispTop SpecLex SpecRun SpecVal SpecNum SpecList SpecForm SpecIo
  BuiltinProofs IoProofs.
Import ListNotations.

(** ** C56: files *)
Theorem C56_write : forall v n m w t i j s st, is_str v n -> is_str w t -> system_name n m -> writable st m ->
  exists r st', builtin_call $"File-WriteAllText" [P i (OVar v); P j (OVar w)] s st (Val (Some r)) st' /\ is_bool r true /\ file_becomes st st' m t.
Proof. exact file_write_ok. Qed.
Print Assumptions C56_write.
Theorem C56_write_failed : forall v n m w t i j s st, is_str v n -> is_str w t -> system_name n m -> ~ writable st m ->
  builtin_pure $"File-WriteAllText" [P i (OVar v); P j (OVar w)] s st (fun r => is_bool r false).
Proof. exact file_write_no. Qed.
Print Assumptions C56_write_failed.
Theorem C56_read : forall v n m i s st, is_str v n -> system_name n m ->
  builtin_pure $"File-ReadAllText" [P i (OVar v)] s st (fun r => is_str r (match file_at st m with Some t => t | None => [] end)).
Proof. exact file_read_ok. Qed.
Print Assumptions C56_read.
Theorem C56_exists : forall v n m i s st, is_str v n -> system_name n m ->
  builtin_pure $"File-Exists" [P i (OVar v)] s st (fun r => exists b, is_bool r b /\ (b = true <-> exists t, file_at st m = Some t)).
Proof. exact file_exists_ok. Qed.
Print Assumptions C56_exists.
Theorem C56_write_read : forall v n m w t i j k s st, is_str v n -> is_str w t -> system_name n m -> writable st m ->
  exists r st', builtin_call $"File-WriteAllText" [P i (OVar v); P j (OVar w)] s st (Val (Some r)) st' /\
    builtin_pure $"File-ReadAllText" [P k (OVar v)] s st' (fun r => is_str r t).
Proof. exact file_back. Qed.
Print Assumptions C56_write_read.
Theorem C56_missing_told_refuted : exists s st1 st2 v r, is_str v $"f" /\ file_at st1 $"f" = Some [] /\ file_at st2 $"f" = None /\
  builtin_call $"File-ReadAllText" [P 1 (OVar v)] s st1 (Val (Some r)) st1 /\ builtin_call $"File-ReadAllText" [P 1 (OVar v)] s st2 (Val (Some r)) st2.
Proof. exact file_missing. Qed.
Print Assumptions C56_missing_told_refuted.
Definition one_file : state := init_state [] [($"a.txt", $"hello")] (Env (fun n => negb (str_eqb n $"locked")) None []).
Example C56_ex :
  is_str (vstr ($"a.txt" ++ c_nul :: $"x")) ($"a.txt" ++ c_nul :: $"x") /\ system_name ($"a.txt" ++ c_nul :: $"x") $"a.txt" /\ system_name $"locked" $"locked" /\
  writable one_file $"a.txt" /\ ~ writable one_file $"locked" /\ file_at one_file $"a.txt" = Some $"hello" /\ file_at one_file $"b.txt" = None.
Proof.
  split; [apply vstr_is|]. split; [apply sn_cut; intros H; vm_compute in H; intuition discriminate|]. split; [apply sn_all; intros H; vm_compute in H; intuition discriminate|].
  split; [reflexivity|]. split; [intros H; vm_compute in H; discriminate|]. split; reflexivity.
Qed.

(** ** C57: printing *)
Theorem C57_print : forall s st ps ts, scope_exists st s -> var_at st s $"###traceon###" = None -> Forall2 (shows s st) ps ts ->
  exists r, builtin_call $"print" ps s st (Val (Some r)) (written_out st (line_of ts)) /\ is_str r (line_of ts).
Proof. exact print_ok. Qed.
Print Assumptions C57_print.
Theorem C57_println : forall s st ps ts, scope_exists st s -> var_at st s $"###traceon###" = None -> Forall2 (shows s st) ps ts ->
  exists r, builtin_call $"println" ps s st (Val (Some r)) (written_out st (line_of ts ++ [c_nl])) /\ is_str r (line_of ts).
Proof. exact println_ok. Qed.
Print Assumptions C57_println.
Theorem C57_collected : forall s st ps ts b, collects st s b -> Forall2 (shows s st) ps ts ->
  (exists r st', builtin_call $"print" ps s st (Val (Some r)) st' /\ is_str r (line_of ts) /\ collected st st' s (b ++ line_of ts) (line_of ts)) /\
  (exists r st', builtin_call $"println" ps s st (Val (Some r)) st' /\ is_str r (line_of ts) /\ collected st st' s (b ++ line_of ts) (line_of ts ++ [c_nl])).
Proof. exact print_collects. Qed.
Print Assumptions C57_collected.
Theorem C57_gettrace : forall s st b, collects st s b -> builtin_pure $"gettrace" [] s st (fun r => is_str r b).
Proof. exact gettrace_collects. Qed.
Print Assumptions C57_gettrace.
Theorem C57_switch_off_refuted : exists v st', runs false false $"(do (print 1) (print 2) (gettrace))" [] fresh (Val (Some v)) st' /\ is_str v $"12" /\ st_out st' = $"12".
Proof. exact untraced_buffer. Qed.
Print Assumptions C57_switch_off_refuted.
Theorem C57_trace_local : forall s st ps ts i o, scope_exists st s -> var_at st s $"###traceon###" = Some (P i o) -> var_at st s $"###tracebuffer###" = None -> Forall2 (shows s st) ps ts ->
  exists st', builtin_call $"print" ps s st (Undef UBNullDeref) st'.
Proof. exact trace_crash. Qed.
Print Assumptions C57_trace_local.
Theorem C57_gettrace_local : forall s st, scope_exists st s -> var_at st s $"###tracebuffer###" = None -> exists st', builtin_call $"gettrace" [] s st (Undef UBNullDeref) st'.
Proof. exact gettrace_crash. Qed.
Print Assumptions C57_gettrace_local.
Theorem C57_trace_crash_refuted : exists st', runs false false $"(do (defn f () (do (trace #t) (print 1))) (f))" [] fresh (Undef UBNullDeref) st'.
Proof. exact traced_function. Qed.
Print Assumptions C57_trace_crash_refuted.
Definition inside : state := with_scopes (PositiveMap.add 9%positive (Scope [] $"f" [] main_sid None (Some main_sid) None false false false false None None None []) (st_scopes fresh)) fresh.
Definition told (v : variant) : ptr := P 1 (OVar v).
Example C57_ex :
  scope_exists inside 9%positive /\ var_at inside 9%positive $"###traceon###" = None /\
  Forall2 (shows 9%positive inside) [told (vstr []); told (vint 5); told (vstr $"a b")] [[]; $"5"; $"a b"] /\ line_of [[]; $"5"; $"a b"] = $"5 a b" /\
  collects fresh main_sid [] /\ Forall2 (shows main_sid fresh) [told (vint 5); told (vstr [])] [$"5"; []] /\ line_of [$"5"; []] = $"5 ".
Proof.
  split; [eexists; vm_compute; reflexivity|]. split; [vm_compute; reflexivity|].
  assert (S : forall v t s st, v_ty v <> TNative -> call_builtin (run 0) BToString [told v] s st = (Val (Some (vstr t)), st) -> shows s st (told v) t).
  { intros v t s st N E. exists 1%positive, v. split; [reflexivity|]. split; [exact N|]. apply (pure_intro _ BToString) with (r := vstr t); [vm_compute; reflexivity|exact E|apply vstr_is]. }
  split; [repeat constructor; apply S; try discriminate; reflexivity|]. split; [reflexivity|]. split; [exact fresh_collects|].
  split; [repeat constructor; apply S; try discriminate; reflexivity|reflexivity].
Qed.

(** ** C58: conversions to integers *)
Theorem C58_parse_integer : forall v t z i s st, is_str v t -> integer_text t z -> builtin_pure $"parse-integer" [P i (OVar v)] s st (fun r => is_int r z).
Proof. exact parseint_text. Qed.
Print Assumptions C58_parse_integer.
Theorem C58_parse_junk : forall v t i s st, is_str v t -> (forall z, ~ integer_text t z) -> builtin_pure $"parse-integer" [P i (OVar v)] s st is_undef.
Proof. exact parseint_junk. Qed.
Print Assumptions C58_parse_junk.
Theorem C58_int_text : forall v t i s st (Q : variant -> Prop), is_str v t -> builtin_pure $"parse-integer" [P i (OVar v)] s st Q -> builtin_pure $"int" [P i (OVar v)] s st Q.
Proof. exact int_of_text. Qed.
Print Assumptions C58_int_text.
Theorem C58_int_int : forall v z i s st, is_int v z -> builtin_pure $"int" [P i (OVar v)] s st (fun r => is_int r z).
Proof. exact int_of_int. Qed.
Print Assumptions C58_int_int.
Theorem C58_int_bool : forall v (b : bool) i s st, is_bool v b -> builtin_pure $"int" [P i (OVar v)] s st (fun r => is_int r (if b then 1 else 0)).
Proof. exact int_of_bool. Qed.
Print Assumptions C58_int_bool.
Theorem C58_other_types : forall v i s st, v_ty v <> TInt -> v_ty v <> TDouble -> v_ty v <> TString -> v_ty v <> TBool ->
  builtin_pure $"int" [P i (OVar v)] s st (fun r => is_int r 0) /\ builtin_pure $"float" [P i (OVar v)] s st (fun r => is_int r 0).
Proof. exact int_of_rest. Qed.
Print Assumptions C58_other_types.
Example C58_ex : is_str (vstr $" -42") $" -42" /\ integer_text $" -42" (-42) /\ is_str (vstr $"4x") $"4x" /\ forall z, ~ integer_text $"4x" z.
Proof.
  split; [apply vstr_is|]. split.
  - exists $" ", $"-42". split; [reflexivity|]. split; [reflexivity|]. split; [apply (it_minus $"42"); [discriminate|reflexivity]|]. unfold fits. lia.
  - split; [apply vstr_is|]. intros z H. apply stoi_text in H. vm_compute in H. discriminate.
Qed.

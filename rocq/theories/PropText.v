(** Properties C14 - C17: numbers as text, text functions, format, lines. *)
Require Import String Ascii List ZArith Bool Lia.
Require Import PArith FMapPositive.
From Verif Require Import Base CppString Num Token Value State Builtins Eval LispTop SpecLex SpecRun SpecVal SpecText
  TextProofs StrProofs.
Import ListNotations.

(** ** C14: integers as text *)
Theorem C14_int_of_str : forall z v i s st, (-2147483648 <= z <= 2147483647)%Z -> is_int v z ->
  exists t, builtin_pure $"str" [P i (OVar v)] s st (fun r => is_str r t) /\ int_text t z /\
    forall w j, is_str w t ->
      builtin_pure $"int" [P j (OVar w)] s st (fun r => is_int r z) /\
      builtin_pure $"parse-integer" [P j (OVar w)] s st (fun r => is_int r z).
Proof. exact int_text_roundtrip. Qed.
Print Assumptions C14_int_of_str.
Example C14_int_of_str_ex : is_int (mkv TInt (OInt (-2147483648))) (-2147483648) /\
  is_str (mkv TString (OString $"-2147483648")) $"-2147483648" /\ int_text $"-2147483648" (-2147483648).
Proof.
  split; [split; reflexivity|]. split; [split; reflexivity|].
  change (-2147483648)%Z with (- dec_value 0 $"2147483648")%Z. apply it_minus; [discriminate|reflexivity].
Qed.

Theorem C14_str_injective : forall z1 z2 v1 v2 i1 i2 s st t, is_int v1 z1 -> is_int v2 z2 ->
  builtin_pure $"str" [P i1 (OVar v1)] s st (fun r => is_str r t) ->
  builtin_pure $"str" [P i2 (OVar v2)] s st (fun r => is_str r t) -> z1 = z2.
Proof. exact str_injective. Qed.
Print Assumptions C14_str_injective.
Example C14_str_injective_ex : forall s st,
  builtin_pure $"str" [P 1 (OVar (vint 7))] s st (fun r => is_str r $"7").
Proof.
  intros s st. destruct (C14_int_of_str 7 (vint 7) 1 s st) as (t & H & T & _); [lia|split; reflexivity|].
  exact (str_of_int 7 (vint 7) 1 s st (conj eq_refl eq_refl)).
Qed.

(** ** C15: trim, replace, search, slice *)
Theorem C15_trim : forall v t i s st, is_str v t -> forallb is_7bit t = true ->
  builtin_pure $"trim" [P i (OVar v)] s st (fun r => exists u, is_str r u /\ trimmed t u).
Proof. exact trim_builtin. Qed.
Print Assumptions C15_trim.
Theorem C15_trim_determined : forall t r r', trimmed t r -> trimmed t r' -> r = r'.
Proof. exact trimmed_unique. Qed.
Print Assumptions C15_trim_determined.
Theorem C15_trim_idempotent : forall t r r', trimmed t r -> trimmed r r' -> r' = r.
Proof. exact trimmed_again. Qed.
Print Assumptions C15_trim_idempotent.
Example C15_trim_ex : trimmed ($"  a b" ++ [c_nl]) $"a b" /\ forallb is_7bit ($"  a b" ++ [c_nl]) = true.
Proof. split; [|reflexivity]. exists $"  ", [c_nl]. repeat split; reflexivity. Qed.
(** A byte above 127 at an end is passed to isspace as a negative int. *)
Theorem C15_trim_8bit_refuted : exists v t i s st, is_str v t /\
  builtin_call $"trim" [P i (OVar v)] s st (Undef UBCtype) st.
Proof. exact trim_8bit. Qed.
Print Assumptions C15_trim_8bit_refuted.

Theorem C15_replace : forall v1 t v2 n v3 r i1 i2 i3 s st, is_str v1 t -> is_str v2 n -> is_str v3 r ->
  n <> [] -> ~ In c_nul n -> ~ In c_nul r ->
  builtin_pure $"replace" [P i1 (OVar v1); P i2 (OVar v2); P i3 (OVar v3)] s st (fun x => exists u, is_str x u /\ replaced n r t u).
Proof. exact replace_builtin. Qed.
Print Assumptions C15_replace.
Theorem C15_replace_nothing : forall v1 t v2 v3 r i1 i2 i3 s st, is_str v1 t -> is_str v2 [] -> is_str v3 r ->
  builtin_pure $"replace" [P i1 (OVar v1); P i2 (OVar v2); P i3 (OVar v3)] s st (fun x => is_str x t).
Proof. exact replace_empty_builtin. Qed.
Print Assumptions C15_replace_nothing.
Theorem C15_replace_determined : forall n r t s1 s2, replaced n r t s1 -> replaced n r t s2 -> s1 = s2.
Proof. exact replaced_unique. Qed.
Print Assumptions C15_replace_determined.
Theorem C15_replace_self : forall n s s', replaced n n s s' -> s' = s.
Proof. exact replaced_self. Qed.
Print Assumptions C15_replace_self.
Theorem C15_replace_gone : forall n r s s', n <> [] -> r <> [] -> (forall c, In c r -> ~ In c n) ->
  replaced n r s s' -> ~ occurs n s'.
Proof. exact replaced_gone. Qed.
Print Assumptions C15_replace_gone.
Example C15_replace_ex : replaced $"ab" $"x" $"cabab" $"cxx" /\ (forall c, In c $"x" -> ~ In c $"ab").
Proof.
  split; [|cbn; intuition congruence].
  pose proof (Replace_spec $"cabab" $"ab" $"x") as H. change (Replace $"cabab" $"ab" $"x") with $"cxx" in H.
  apply H; [discriminate|cbn; intuition discriminate|cbn; intuition discriminate].
Qed.
(** With an empty replacement the needle can reappear. *)
Theorem C15_replace_by_nothing_refuted : exists n s s', replaced n [] s s' /\ occurs n s'.
Proof. exact replaced_reappears. Qed.
Print Assumptions C15_replace_by_nothing_refuted.

Theorem C15_search : forall v1 n v2 t i1 i2 s st, is_str v1 n -> is_str v2 t -> (Z.of_nat (length t) < 2147483648)%Z ->
  builtin_pure $"search" [P i1 (OVar v1); P i2 (OVar v2)] s st (fun x => exists z, is_int x z /\ found_at n t 0 z).
Proof. exact search_builtin. Qed.
Print Assumptions C15_search.
Theorem C15_search_from : forall v1 n v2 t v3 pos i1 i2 i3 s st, is_str v1 n -> is_str v2 t -> is_int v3 (Z.of_nat pos) ->
  (pos <= length t)%nat -> (Z.of_nat (length t) < 2147483648)%Z ->
  builtin_pure $"search" [P i1 (OVar v1); P i2 (OVar v2); P i3 (OVar v3)] s st (fun x => exists z, is_int x z /\ found_at n t pos z).
Proof. exact search_from_builtin. Qed.
Print Assumptions C15_search_from.
Example C15_search_ex : found_at $"ab" $"cabab" 2 3 /\ found_at $"ab" $"cabab" 4 (-1) /\ is_int (vint 2) (Z.of_nat 2).
Proof.
  split; [|split; [|split; reflexivity]].
  - exact (found_ofpos $"ab" $"cabab" 2 ltac:(cbn; lia) ltac:(cbn; lia)).
  - exact (found_ofpos $"ab" $"cabab" 4 ltac:(cbn; lia) ltac:(cbn; lia)).
Qed.

Theorem C15_slice : forall v1 t v2 pos v3 len i1 i2 i3 s st, is_str v1 t -> is_int v2 (Z.of_nat pos) -> is_int v3 len ->
  (pos <= length t)%nat ->
  builtin_pure $"slice" [P i1 (OVar v1); P i2 (OVar v2); P i3 (OVar v3)] s st (fun x => exists a u b, is_str x u /\
    t = a ++ u ++ b /\ length a = pos /\
    ((0 <= len)%Z -> Z.of_nat (length u) = Z.min len (Z.of_nat (length t) - Z.of_nat pos)) /\ ((len < 0)%Z -> b = [])).
Proof. exact slice_builtin. Qed.
Print Assumptions C15_slice.
Theorem C15_slice_splits : forall v t p u1 u2 s st i1 i2 i3 j1 j2 j3 z1 z2 z3 z4, is_str v t -> (p <= length t)%nat ->
  is_int z1 0 -> is_int z2 (Z.of_nat p) -> is_int z3 (Z.of_nat p) -> is_int z4 (-1) ->
  builtin_pure $"slice" [P i1 (OVar v); P i2 (OVar z1); P i3 (OVar z2)] s st (fun x => is_str x u1) ->
  builtin_pure $"slice" [P j1 (OVar v); P j2 (OVar z3); P j3 (OVar z4)] s st (fun x => is_str x u2) ->
  u1 ++ u2 = t /\ length u1 = p.
Proof. exact slice_splits. Qed.
Print Assumptions C15_slice_splits.
Example C15_slice_ex : forall s st,
  builtin_pure $"slice" [P 1 (OVar (vstr $"hello")); P 1 (OVar (vint 0)); P 1 (OVar (vint 2))] s st (fun x => is_str x $"he") /\
  builtin_pure $"slice" [P 1 (OVar (vstr $"hello")); P 1 (OVar (vint 2)); P 1 (OVar (vint (-1)))] s st (fun x => is_str x $"llo").
Proof.
  intros s st. split.
  - exists (vstr $"he"). split; [|split; reflexivity]. exact (slice_he s st).
  - exists (vstr $"llo"). split; [|split; reflexivity]. exact (slice_llo s st).
Qed.

(** ** C16: format *)
Theorem C16_format : forall args ts ps s st, Forall2 text_arg args (template ps :: ts) -> (length ts <= 5)%nat ->
  Forall piece_ok ps -> Forall (fun a => ~ In c_open a /\ a <> $"##<NULL>##") ts ->
  (forall k, In k (skipn (length ts) digits5) -> ~ has_hole k ps) ->
  builtin_pure $"format" args s st (fun r => is_str r (template (fill_all digits5 ts ps))).
Proof. exact format_builtin. Qed.
Print Assumptions C16_format.
Theorem C16_format_too_few : forall args ts ps s st k, Forall2 text_arg args (template ps :: ts) -> (length ts <= 5)%nat ->
  Forall piece_ok ps -> Forall (fun a => ~ In c_open a /\ a <> $"##<NULL>##") ts ->
  In k (skipn (length ts) digits5) -> has_hole k ps ->
  builtin_call $"format" args s st (Throw (ELispBase ($"Not enough items for format string: " ++ template ps))) st.
Proof. exact format_short_builtin. Qed.
Print Assumptions C16_format_too_few.
Example C16_format_ex :
  let ps := [PLit $"a="; PHole "1"%char; PLit $" b="; PWide "0"%char $"-5" (-5); PLit $"|"; PHole "1"%char] in
  let args := [P 1 (OVar (vstr $"a={1} b={0,-5}|{1}")); P 2 (OVar (vstr $"xy")); P 3 (OVar (vstr $"z"))] in
  template ps = $"a={1} b={0,-5}|{1}" /\ Forall2 text_arg args (template ps :: [$"xy"; $"z"]) /\ Forall piece_ok ps /\
  template (fill_all digits5 [$"xy"; $"z"] ps) = $"a=z b=xy   |{1}" /\
  forall k, In k (skipn 2 digits5) -> ~ has_hole k ps.
Proof.
  cbv zeta. split; [reflexivity|]. split; [|split; [|split; [reflexivity|]]].
  - repeat constructor; eexists; eexists; (split; [reflexivity|split; reflexivity]).
  - repeat constructor; try (cbn; intuition discriminate); try lia.
  - cbn. intros k K H. unfold has_hole in H. cbn in H.
    repeat destruct K as [<-|K]; try contradiction; destruct H as [H|(wt & w & H)]; intuition discriminate.
Qed.
(** An argument with braces is scanned again: the text of the second argument is put into the first,
    and an argument can make format throw a C++ exception that is not a Lisp error. *)
Theorem C16_braces_refuted : forall s st,
  builtin_pure $"format" [P 1 (OVar (vstr $"{0}-{1}")); P 2 (OVar (vstr $"{1}")); P 3 (OVar (vstr $"x"))] s st
    (fun r => is_str r $"x-{1}") /\
  builtin_call $"format" [P 1 (OVar (vstr $"{0}")); P 2 (OVar (vstr $"{1,z}"))] s st (Throw EInvalidArg) st.
Proof. exact format_braces. Qed.
Print Assumptions C16_braces_refuted.

(** ** C17: lines *)
Theorem C17_lines : forall t, t <> [] ->
  exists ls, reader_lines t = Val ls /\ ls <> [] /\ join_lines ls = t /\ Forall is_line ls.
Proof. exact reader_lines_spec. Qed.
Print Assumptions C17_lines.
Theorem C17_split_join : forall ls, ls <> [] -> Forall is_line ls -> Split (join_lines ls) [c_nl] = Val ls.
Proof. exact Split_join. Qed.
Print Assumptions C17_split_join.
Theorem C17_readline : forall s n st,
  exists ts st', read_times s n st ts st' /\ ts = firstn n (st_in st ++ repeat [] n).
Proof. exact read_lines. Qed.
Print Assumptions C17_readline.
Example C17_lines_ex : reader_lines ($"ab" ++ [c_nl; c_nl] ++ $"c") = Val [$"ab"; []; $"c"] /\
  join_lines [$"ab"; []; $"c"] = $"ab" ++ [c_nl; c_nl] ++ $"c".
Proof. split; reflexivity. Qed.

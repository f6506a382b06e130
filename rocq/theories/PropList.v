(** Properties C21, C22, C23, C49: lists and strings as sequences. *)
Require Import String Ascii List ZArith Bool Lia.
Require Import PArith FMapPositive.
From Verif Require Import Base CppString Num Token Value State Builtins Eval LispTop SpecRun SpecVal SpecList ListProofs.
Import ListNotations.

(** ** C21: constructors and selectors *)
Theorem C21_list : forall args s st, heap_numbered st -> builtin_list $"list" args s st args.
Proof. exact list_ok. Qed.
Print Assumptions C21_list.
Theorem C21_cons : forall x p es s st, heap_numbered st -> list_arg st p es -> builtin_list $"cons" [x; p] s st (x :: es).
Proof. exact cons_ok. Qed.
Print Assumptions C21_cons.
Theorem C21_cons_short : forall x s st, heap_numbered st -> builtin_list $"cons" [] s st [] /\ builtin_list $"cons" [x] s st [x].
Proof. exact cons_short. Qed.
Print Assumptions C21_cons_short.
Theorem C21_cons_pair : forall x i v s st, heap_numbered st -> v_ty v <> TList -> v_ty v <> TNil ->
  builtin_list $"cons" [x; P i (OVar v)] s st [x; P i (OVar v)].
Proof. exact cons_pair. Qed.
Print Assumptions C21_cons_pair.
Theorem C21_append : forall ps ess s st, heap_numbered st -> Forall2 (list_arg st) ps ess -> builtin_list $"append" ps s st (concat ess).
Proof. exact append_ok. Qed.
Print Assumptions C21_append.
Theorem C21_reverse : forall p es s st, heap_numbered st -> list_arg st p es -> builtin_list $"reverse" [p] s st (rev es).
Proof. exact reverse_ok. Qed.
Print Assumptions C21_reverse.
Theorem C21_len : forall p es s st, list_arg st p es -> (Z.of_nat (length es) <= 2147483647)%Z ->
  builtin_pure $"len" [p] s st (fun r => is_int r (Z.of_nat (length es))).
Proof. exact len_ok. Qed.
Print Assumptions C21_len.
Theorem C21_first : forall p e es v s st, list_arg st p (e :: es) -> element e v -> asks_value st s ->
  builtin_pure $"first" [p] s st (fun r => r = v).
Proof. exact first_ok. Qed.
Print Assumptions C21_first.
Theorem C21_last : forall p e es v s st, list_arg st p (es ++ [e]) -> element e v -> asks_value st s ->
  builtin_pure $"last" [p] s st (fun r => r = v).
Proof. exact last_ok. Qed.
Print Assumptions C21_last.
Theorem C21_rest : forall p e es s st, heap_numbered st -> list_arg st p (e :: es) -> builtin_list $"rest" [p] s st es.
Proof. exact rest_ok. Qed.
Print Assumptions C21_rest.
Theorem C21_nth : forall i w z p es e v s st, is_int w z -> list_arg st p es -> (0 <= z)%Z -> nth_error es (Z.to_nat z) = Some e -> element e v ->
  asks_value st s -> builtin_pure $"nth" [P i (OVar w); p] s st (fun r => r = v).
Proof. exact nth_ok. Qed.
Print Assumptions C21_nth.
Theorem C21_first_cons : forall x v p es s st i, heap_numbered st -> list_arg st p es -> element x v -> asks_value st s ->
  exists r st', builtin_call $"cons" [x; p] s st (Val (Some r)) st' /\ builtin_pure $"first" [P i (OVar r)] s st' (fun w => w = v).
Proof. exact first_cons. Qed.
Print Assumptions C21_first_cons.
Theorem C21_rest_cons : forall x p es s st i, heap_numbered st -> list_arg st p es ->
  exists r st', builtin_call $"cons" [x; p] s st (Val (Some r)) st' /\ builtin_list $"rest" [P i (OVar r)] s st' es.
Proof. exact rest_cons. Qed.
Print Assumptions C21_rest_cons.
Theorem C21_reverse_twice : forall p es s st i, heap_numbered st -> list_arg st p es ->
  exists r st', builtin_call $"reverse" [p] s st (Val (Some r)) st' /\ builtin_list $"reverse" [P i (OVar r)] s st' es.
Proof. exact reverse_twice. Qed.
Print Assumptions C21_reverse_twice.
Theorem C21_reverse_append : forall p q es ds s st i j k, heap_numbered st -> list_arg st p es -> list_arg st q ds ->
  exists r1 st1 r2 st2 r3 st3, builtin_call $"append" [p; q] s st (Val (Some r1)) st1 /\
    builtin_call $"reverse" [q] s st1 (Val (Some r2)) st2 /\ builtin_call $"reverse" [p] s st2 (Val (Some r3)) st3 /\
    exists es', builtin_list $"reverse" [P i (OVar r1)] s st3 es' /\ builtin_list $"append" [P j (OVar r2); P k (OVar r3)] s st3 es'.
Proof. exact reverse_append. Qed.
Print Assumptions C21_reverse_append.
Theorem C21_first_empty_undefined : forall p s st, list_arg st p [] -> asks_value st s -> builtin_call $"first" [p] s st (Undef UBIndex) st.
Proof. exact first_empty. Qed.
Print Assumptions C21_first_empty_undefined.
Theorem C21_last_empty_undefined : forall p s st, list_arg st p [] -> asks_value st s -> builtin_call $"last" [p] s st (Undef UBIndex) st.
Proof. exact last_empty. Qed.
Print Assumptions C21_last_empty_undefined.
Theorem C21_rest_empty_undefined : forall p s st, list_arg st p [] -> builtin_call $"rest" [p] s st (Undef UBIndex) st.
Proof. exact rest_empty. Qed.
Print Assumptions C21_rest_empty_undefined.
Theorem C21_nth_outside_undefined : forall i w z p es s st, is_int w z -> list_arg st p es -> (z < 0 \/ Z.of_nat (length es) <= z)%Z -> asks_value st s ->
  builtin_call $"nth" [P i (OVar w); p] s st (Undef UBIndex) st.
Proof. exact nth_outside. Qed.
Print Assumptions C21_nth_outside_undefined.
Theorem C21_not_a_list : forall name v z i s st, In name [$"first"; $"last"; $"rest"; $"len"; $"reverse"; $"append"] -> is_int v z -> asks_value st s ->
  builtin_call name [P i (OVar v)] s st (Throw (ELisp ($"Invalid cast for list, value=" ++ z_to_string z ++ $" no")
    (ErrInfo (tok_line (v_tok v)) (tok_start (v_tok v)) (tok_stop (v_tok v)) $"???" $"???"))) st.
Proof. exact no_list_error. Qed.
Print Assumptions C21_not_a_list.
Theorem C21_reachable_states_numbered : forall st, reachable st -> heap_numbered st.
Proof. exact reachable_heap. Qed.
Print Assumptions C21_reachable_states_numbered.
Example C21_ex : heap_numbered sample /\ asks_value sample main_sid /\
  list_arg sample (P 9 (OVar sample_list)) [P 1 (OVar (vint 7)); P 2 (OVar (vint 8)); P 3 (OVar (vint 9))] /\
  list_arg sample (P 9 (OVar vnil)) [] /\ element (P 1 (OVar (vint 7))) (vint 7).
Proof.
  split; [|split; [|split; [|split]]].
  - split; intros l x H.
    + destruct (Pos.eq_dec l 1) as [->|N]; [reflexivity|]. unfold vec_at in H. cbn [sample st_vecs with_nloc with_vecs] in H.
      rewrite PositiveMap.gso in H by exact N. rewrite PositiveMap.gempty in H. discriminate.
    + unfold dict_at in H. cbn [sample st_dicts with_nloc with_vecs fresh init_state] in H. rewrite PositiveMap.gempty in H. discriminate.
  - exists main_scope. split; reflexivity.
  - exists 9%positive, sample_list. split; [reflexivity|]. left. exists 1%positive. repeat split.
  - exists 9%positive, vnil. split; [reflexivity|]. right. split; reflexivity.
  - constructor.
Qed.

(** ** C22: map and reduce *)
Theorem C22_map : forall i v f p es s st ps vs st1, is_fn v f -> list_arg st p es -> maps_to f s es st ps vs st1 ->
  exists r l st', builtin_call $"map" [P i (OVar v); p] s st (Val (Some r)) st' /\ is_list_at st' r l ps /\
    Forall2 (fun q w => exists j, q = P j (OVar w)) ps vs /\ (heap_numbered st1 -> vec_at st1 l = None /\ only_adds st1 st').
Proof. exact map_ok. Qed.
Print Assumptions C22_map.
Theorem C22_map_stops_at_failure : forall i v f p es1 e es2 s st ps vs st1 a st2 o o' st3, is_fn v f -> list_arg st p (es1 ++ e :: es2) ->
  maps_to f s es1 st ps vs st1 -> copied e st1 a st2 -> calls f [a] s st2 o st3 -> fails o o' ->
  builtin_call $"map" [P i (OVar v); p] s st o' st3.
Proof. exact map_fail. Qed.
Print Assumptions C22_map_stops_at_failure.
Theorem C22_map_only_so : forall i v f p es s st r st', is_fn v f -> list_arg st p es -> elements es ->
  builtin_call $"map" [P i (OVar v); p] s st (Val (Some r)) st' -> exists ps vs st1, maps_to f s es st ps vs st1 /\ exists l, is_list_at st' r l ps.
Proof. exact map_only. Qed.
Print Assumptions C22_map_only_so.
Theorem C22_reduce : forall i v f p es j w s st r st', is_fn v f -> list_arg st p es -> folds_to f s es w st r st' ->
  builtin_call $"reduce" [P i (OVar v); p; P j (OVar w)] s st (Val (Some r)) st'.
Proof. exact reduce_ok. Qed.
Print Assumptions C22_reduce.
Theorem C22_reduce_stops_at_failure : forall i v f p es1 e es2 j w s st u st1 a st2 b st3 o o' st4, is_fn v f -> list_arg st p (es1 ++ e :: es2) ->
  folds_to f s es1 w st u st1 -> copied e st1 a st2 -> boxed u st2 b st3 -> calls f [a; b] s st3 o st4 -> fails o o' ->
  builtin_call $"reduce" [P i (OVar v); p; P j (OVar w)] s st o' st4.
Proof. exact reduce_fail. Qed.
Print Assumptions C22_reduce_stops_at_failure.
Theorem C22_reduce_only_so : forall i v f p es j w s st r st', is_fn v f -> list_arg st p es -> elements es ->
  builtin_call $"reduce" [P i (OVar v); p; P j (OVar w)] s st (Val (Some r)) st' -> folds_to f s es w st r st'.
Proof. exact reduce_only. Qed.
Print Assumptions C22_reduce_only_so.
(** reduce of - over (7 8 9) from 100: 9 - (8 - (7 - 100)). *)
Example C22_ex : exists f st', builtin_fn $"-" = Some f /\ is_fn (mkv TFun (OFun f)) f /\
  elements [P 1 (OVar (vint 7)); P 2 (OVar (vint 8)); P 3 (OVar (vint 9))] /\
  builtin_call $"reduce" [P 4 (OVar (mkv TFun (OFun f))); P 9 (OVar sample_list); P 5 (OVar (vint 100))] main_sid sample (Val (Some (vint (-92)))) st'.
Proof.
  eexists. eexists. split; [vm_compute; reflexivity|]. split; [split; reflexivity|].
  split; [repeat constructor; eexists; constructor|].
  eexists. split; [vm_compute; reflexivity|]. exists 5%nat. split; [vm_compute; reflexivity|discriminate].
Qed.

(** ** C23: push and pop *)
Theorem C23_push : forall v p w l es k pos a b s st, heap_numbered st -> is_list_at st w l es ->
  (pos = None /\ k = 0%nat \/ pos = Some (Z.of_nat k)) -> (k < length es)%nat ->
  exists q r st', builtin_call $"push" (P a (OVar v) :: P p (OVar w) :: pos_args b pos) s st (Val (Some r)) st' /\
    element q v /\ list_becomes st st' l (firstn k es ++ q :: skipn k es) /\ heap_numbered st' /\
    exists m, m <> l /\ is_list_at st' r m (firstn k es ++ q :: skipn k es).
Proof. exact push_ok. Qed.
Print Assumptions C23_push.
Theorem C23_pop : forall w p l es k e v pos b s st, heap_numbered st -> is_list_at st w l es ->
  (pos = None /\ k = 0%nat \/ pos = Some (Z.of_nat k)) -> nth_error es k = Some e -> element e v ->
  exists st', builtin_call $"pop" (P p (OVar w) :: pos_args b pos) s st (Val (Some v)) st' /\
    list_becomes st st' l (firstn k es ++ skipn (S k) es) /\ heap_numbered st'.
Proof. exact pop_ok. Qed.
Print Assumptions C23_pop.
Theorem C23_pop_push : forall v p w l es k pos a b s st, heap_numbered st -> is_list_at st w l es ->
  (pos = None /\ k = 0%nat \/ pos = Some (Z.of_nat k)) -> (k < length es)%nat ->
  exists r st1 st2, builtin_call $"push" (P a (OVar v) :: P p (OVar w) :: pos_args b pos) s st (Val (Some r)) st1 /\
    builtin_call $"pop" (P p (OVar w) :: pos_args b pos) s st1 (Val (Some v)) st2 /\ list_becomes st st2 l es.
Proof. exact pop_push. Qed.
Print Assumptions C23_pop_push.
Theorem C23_push_ignored : forall v p w es z pos a b s st, list_arg st (P p (OVar w)) es ->
  (pos = None /\ z = 0%Z \/ pos = Some z) -> (Z.of_nat (length es) <= z)%Z ->
  builtin_pure $"push" (P a (OVar v) :: P p (OVar w) :: pos_args b pos) s st (fun r => v_ty r = TNil).
Proof. exact push_ignored. Qed.
Print Assumptions C23_push_ignored.
Theorem C23_pop_ignored : forall p w es z pos b s st, list_arg st (P p (OVar w)) es ->
  (pos = None /\ z = 0%Z \/ pos = Some z) -> (Z.of_nat (length es) <= z)%Z ->
  builtin_pure $"pop" (P p (OVar w) :: pos_args b pos) s st (fun r => v_ty r = TNil).
Proof. exact pop_ignored. Qed.
Print Assumptions C23_pop_ignored.
Theorem C23_push_negative_undefined : forall v p w es z a b s st, list_arg st (P p (OVar w)) es -> (z < 0)%Z ->
  builtin_call $"push" [P a (OVar v); P p (OVar w); P b (OVar (vint z))] s st (Undef UBIndex) st.
Proof. exact push_negative. Qed.
Print Assumptions C23_push_negative_undefined.
Example C23_ex : is_list_at sample sample_list 1%positive [P 1 (OVar (vint 7)); P 2 (OVar (vint 8)); P 3 (OVar (vint 9))] /\
  (Z.of_nat (length [P 1 (OVar (vint 7)); P 2 (OVar (vint 8)); P 3 (OVar (vint 9))]) <= 3)%Z.
Proof. split; [repeat split|reflexivity]. Qed.

(** ** C49: strings as sequences *)
Theorem C49_len_reverse_first : forall v t i s st, is_str v t -> (Z.of_nat (length t) <= 2147483647)%Z ->
  builtin_pure $"len" [P i (OVar v)] s st (fun r => is_int r (Z.of_nat (length t))) /\
  builtin_pure $"reverse" [P i (OVar v)] s st (fun r => is_str r (rev t)) /\
  builtin_pure $"first" [P i (OVar v)] s st (fun r => is_str r (firstn 1 t)).
Proof. exact seq_strings. Qed.
Print Assumptions C49_len_reverse_first.
Theorem C49_rest : forall v c t i s st, is_str v (c :: t) -> builtin_pure $"rest" [P i (OVar v)] s st (fun r => is_str r t).
Proof. exact rest_string. Qed.
Print Assumptions C49_rest.
Theorem C49_empty_refused : forall v i s st, is_str v [] -> builtin_call $"rest" [P i (OVar v)] s st (Throw EOutOfRange) st /\
  builtin_call $"last" [P i (OVar v)] s st (Throw EOutOfRange) st.
Proof. exact rest_string_empty. Qed.
Print Assumptions C49_empty_refused.
Theorem C49_last : forall v t c i s st, is_str v (t ++ [c]) -> builtin_pure $"last" [P i (OVar v)] s st (fun r => is_str r [c]).
Proof. exact last_string. Qed.
Print Assumptions C49_last.
Theorem C49_nth : forall i w z j v t s st, is_int w z -> is_str v t ->
  ((0 <= z <= Z.of_nat (length t))%Z -> builtin_pure $"nth" [P i (OVar w); P j (OVar v)] s st (fun r => is_str r (firstn 1 (skipn (Z.to_nat z) t)))) /\
  (~ (0 <= z <= Z.of_nat (length t))%Z -> builtin_call $"nth" [P i (OVar w); P j (OVar v)] s st (Throw EOutOfRange) st).
Proof. exact nth_string. Qed.
Print Assumptions C49_nth.
Example C49_ex : is_str (vstr $"abc") ($"ab" ++ ["c"%char]) /\ is_str (vstr $"abc") ("a"%char :: $"bc").
Proof. repeat split. Qed.

(** Properties C37 to C40: macros, quote, eval, quasiquote. *)
Require Import String Ascii List ZArith Bool Lia.
Require Import PArith FMapPositive.
From Verif Require Import Base CppString Num Token Value State Builtins Eval LispTop SpecRun SpecVal SpecList SpecForm SpecMacro
  RunProofs FormProofs MacroProofs QuoteProofs.
Import ListNotations.

(** ** C37: expansion without macros *)
Theorem C37_expansion : forall s t st p, heap_numbered st -> code_at st p t -> parsed t -> macro_free st s t ->
  exists p' st', expands p s st (Val p') st' /\ code_at st' p' (nil_emptied t) /\ only_adds st st'.
Proof. exact expand_identity. Qed.
Print Assumptions C37_expansion.
Theorem C37_identity : forall s t st p, heap_numbered st -> code_at st p t -> parsed t -> macro_free st s t -> no_nil t ->
  exists p' st', expands p s st (Val p') st' /\ code_at st' p' t /\ only_adds st st'.
Proof. exact expand_same. Qed.
Print Assumptions C37_identity.
Theorem C37_nil_refuted : exists v st', runs false false $"(str '(1 nil))" [] fresh (Val (Some v)) st' /\ is_str v $"(1 ())".
Proof. exact nil_run. Qed.
Print Assumptions C37_nil_refuted.
Example C37_ex : let plus := CList [CAtom (mkv TSym (OString $"+")); CAtom (vint 1); CAtom (vint 2)] in
  let nil := CAtom (mkv TNil (OString $"nil")) in let lst := CList [CAtom (mkv TSym (OString $"list")); nil; CAtom (vint 4)] in
  heap_numbered macro_st /\ code_at macro_st (code_ 1 82) plus /\ parsed plus /\ macro_free macro_st main_sid plus /\ no_nil plus /\
  code_at macro_st (code_ 1 84) lst /\ parsed lst /\ macro_free macro_st main_sid lst /\ nil_emptied lst = CList [CAtom (mkv TSym (OString $"list")); CList []; CAtom (vint 4)].
Proof.
  assert (SE : scope_exists macro_st main_sid) by (apply main_here; vm_compute; exact I).
  assert (SM : scope_exists macro_st macros_sid) by (eexists; vm_compute; reflexivity).
  assert (IN : forall n, In n [$"+"; $"list"] -> inert macro_st main_sid n).
  { intros n [<-|[<-|[]]]; (split; [right; eexists _, _, _; split; [vm_compute; reflexivity|split; [split; reflexivity|reflexivity]]|right; eexists _, _; split; [vm_compute; reflexivity|split; [exact SM|left; vm_compute; reflexivity]]]). }
  cbv zeta. split; [exact macro_heap|]. split; [see_code|]. split; [see_parsed|].
  split; [split; [apply IN; left; reflexivity|repeat split]|]. split; [repeat split; discriminate|]. split; [see_code|].
  split; [see_parsed|].
  split; [split; [apply IN; right; left; reflexivity|repeat split]|reflexivity].
Qed.

(** ** C38: the arguments of a macro *)
Theorem C38_run_time : forall s sc st k l th xs formals body ts ars,
  heap_numbered st -> scope_at st s = Some sc -> macro_at st (s_global sc) (code_text th) true formals body ->
  macro_use st s l th xs formals body ts ars -> (length xs <= length ars)%nat ->
  exists p st1, code_at st1 p (CList (subst_all xs (map nil_emptied ars) ts)) /\ only_adds st st1 /\
    forall o st', evals (P k (OList l)) s st o st' <-> evals p s st1 o st'.
Proof. exact macro_call. Qed.
Print Assumptions C38_run_time.
Theorem C38_expansion : forall s st k l th xs formals body ts ars,
  heap_numbered st -> quiet st s (code_text th) -> macro_at st s (code_text th) false formals body ->
  macro_use st s l th xs formals body ts ars -> (length xs <= length ars)%nat ->
  exists p st1, code_at st1 p (CList (subst_all xs (map nil_emptied ars) ts)) /\ only_adds st st1 /\
    (forall v l' es st2, evals p s st1 (Val (Some v)) st2 -> v_val v = Some (OList l') -> vec_at st2 l' = Some es ->
       exists i l2 st3, vec_at st3 l2 = Some es /\ (heap_numbered st2 -> only_adds st2 st3) /\
         forall o st', expands (P k (OList l)) s st o st' <-> expands (P i (OList l2)) s st3 o st') /\
    (forall v st2, evals p s st1 (Val (Some v)) st2 ->
       (exists z, v_val v = Some (OInt z)) \/ (exists b, v_val v = Some (OBool b)) \/ (exists t, v_val v = Some (OString t)) ->
       exists st', expands (P k (OList l)) s st (Undef UBBadCast) st') /\
    (forall v st2, evals p s st1 (Val (Some v)) st2 -> v_val v = None -> expands (P k (OList l)) s st (Undef UBNullDeref) st2) /\
    (forall e st2, evals p s st1 (Throw e) st2 -> expands (P k (OList l)) s st (Throw e) st2).
Proof. exact expand_call. Qed.
Print Assumptions C38_expansion.
Theorem C38_too_few : forall s sc st k l th xs formals body ts ars,
  heap_numbered st -> scope_at st s = Some sc -> macro_at st (s_global sc) (code_text th) true formals body ->
  macro_use st s l th xs formals body ts ars -> (length ars < length xs)%nat ->
  exists st', evals (P k (OList l)) s st (Undef UBIndex) st'.
Proof. exact macro_short. Qed.
Print Assumptions C38_too_few.
Theorem C38_capture_refuted : exists v st', runs false false $"(do (def b 10) (define-macro-eval m (a b) (list a b)) (str (m b 1)))" [] fresh (Val (Some v)) st' /\ is_str v $"(1 1)".
Proof. exact capture_run. Qed.
Print Assumptions C38_capture_refuted.
Theorem C38_literal : exists v st', runs false false ($"(do (define-macro-eval m (x) (list " ++ [c_dquote] ++ $"x" ++ [c_dquote] ++ $" x)) (str (m 5)))") [] fresh (Val (Some v)) st' /\ is_str v $"(5 5)".
Proof. exact literal_run. Qed.
Print Assumptions C38_literal.
Theorem C38_too_few_run : exists st', runs false false $"(do (define-macro-eval m (x y) (list x y)) (m 5))" [] fresh (Undef UBIndex) st'.
Proof. exact short_run. Qed.
Print Assumptions C38_too_few_run.
Theorem C38_atom_undefined : exists st', runs false false $"(do (define-macro-expand m (x) (+ 1 x)) (m 5))" [] fresh (Undef UBBadCast) st'.
Proof. exact expand_atom_run. Qed.
Print Assumptions C38_atom_undefined.
(** (m (+ 1 2) b) becomes (list b (list (+ 1 2) b)), (e 3 b) becomes (quote (+ 3 b)). *)
Example C38_ex : let m := CAtom (mkv TSym (OString $"m")) in let e := CAtom (mkv TSym (OString $"e")) in
  let plus := CList [CAtom (mkv TSym (OString $"+")); CAtom (vint 1); CAtom (vint 2)] in let b := CAtom (mkv TSym (OString $"b")) in
  exists sc fm bm tm fe be te, heap_numbered macro_st /\ scope_at macro_st main_sid = Some sc /\ macro_at macro_st (s_global sc) (code_text m) true fm bm /\
  macro_use macro_st main_sid 81%positive m [$"x"; $"y"] fm bm tm [plus; b] /\ code_text (CList (subst_all [$"x"; $"y"] [plus; b] tm)) = $"(list b (list (+ 1 2) b))" /\
  quiet macro_st main_sid (code_text e) /\ macro_at macro_st main_sid (code_text e) false fe be /\
  macro_use macro_st main_sid 83%positive e [$"x"; $"y"] fe be te [CAtom (vint 3); b] /\ code_text (CList (subst_all [$"x"; $"y"] [CAtom (vint 3); b] te)) = $"(quote (+ 3 b))".
Proof.
  assert (SE : scope_exists macro_st main_sid) by (apply main_here; vm_compute; exact I).
  assert (SM : scope_exists macro_st macros_sid) by (eexists; vm_compute; reflexivity).
  assert (IN : inert macro_st main_sid $"+").
  { split; [right; eexists _, _, _; split; [vm_compute; reflexivity|split; [split; reflexivity|reflexivity]]|right; eexists _, _; split; [vm_compute; reflexivity|split; [exact SM|left; vm_compute; reflexivity]]]. }
  cbv zeta. destruct SE as (sc & SE). exists sc. assert (GL : s_global sc = main_sid) by (vm_compute in SE; injection SE as <-; reflexivity). rewrite GL.
  eexists _, _, _, _, _, _. split; [exact macro_heap|]. split; [exact SE|].
  split; [eexists _, _, _; split; vm_compute; reflexivity|]. split.
  { eexists _, _. split; [vm_compute; reflexivity|]. split; [apply ca_atom|]. split; [left; eexists; split; reflexivity|].
    split; [repeat (apply Forall2_cons; [eexists _, _; split; [reflexivity|split; reflexivity]|]); apply Forall2_nil|]. split; [see_code|]. split; [see_valued|]. split; [vm_compute; reflexivity|].
    split; [see_code|]. split; [see_parsed|]. split; [see_valued|].
    apply Forall_cons; [split; [exact IN|repeat split]|apply Forall_cons; [exact I|apply Forall_nil]]. }
  split; [vm_compute; reflexivity|]. split; [left; split; [exists sc; exact SE|vm_compute; reflexivity]|]. split; [eexists _, _, _; split; vm_compute; reflexivity|]. split.
  { eexists _, _. split; [vm_compute; reflexivity|]. split; [apply ca_atom|]. split; [left; eexists; split; reflexivity|].
    split; [repeat (apply Forall2_cons; [eexists _, _; split; [reflexivity|split; reflexivity]|]); apply Forall2_nil|]. split; [see_code|]. split; [see_valued|]. split; [vm_compute; reflexivity|].
    split; [see_code|]. split; [see_parsed|]. split; [see_valued|].
    repeat constructor. }
  vm_compute; reflexivity.
Qed.

(** ** C39: quote and eval *)
Theorem C39_quote : forall st s p tok x t, heap_numbered st -> form st p $"quote" tok [x] -> standard st s $"quote" -> plain x -> code_at st x t ->
  exists v st', evals p s st (Val (Some v)) st' /\ holds st' v t /\ only_adds (noted st s tok) st'.
Proof. exact quote_value. Qed.
Print Assumptions C39_quote.
Theorem C39_eval : forall st s p q tok tok2 x t, heap_numbered st -> form st p $"eval" tok [q] -> standard st s $"eval" ->
  form st q $"quote" tok2 [x] -> (exists i l, q = P i (OList l)) -> standard st s $"quote" -> plain x -> code_at st x t -> is_nil_atom t = false ->
  (forall v, t = CAtom v -> v_ty v <> TList) ->
  exists st1, only_adds (noted (noted st s tok) s tok2) st1 /\ code_at st1 x t /\ forall o st', evals p s st o st' <-> evals x s st1 o st'.
Proof. exact eval_quoted. Qed.
Print Assumptions C39_eval.
Example C39_ex : let t := CList [CAtom (vint 1); CList [CAtom (vint 2); CAtom (mkv TSym (OString $"x"))]] in
  let plus := CList [CAtom (mkv TSym (OString $"+")); CAtom (vint 1); CAtom (vint 2)] in
  heap_numbered macro_st /\ form macro_st (code_ 1 85) $"quote" None [code_ 72 86] /\ standard macro_st main_sid $"quote" /\ plain (code_ 72 86) /\ code_at macro_st (code_ 72 86) t /\
  form macro_st (code_ 1 88) $"eval" None [code_ 72 89] /\ standard macro_st main_sid $"eval" /\ form macro_st (code_ 72 89) $"quote" None [code_ 72 82] /\ code_at macro_st (code_ 72 82) plus /\
  is_nil_atom plus = false /\ exists st', evals (code_ 1 88) main_sid macro_st (Val (Some (vint 3))) st'.
Proof.
  cbv zeta. split; [exact macro_heap|]. split; [apply (form_by _ _ _ 71); vm_compute; reflexivity|]. split; [apply std_main; vm_compute; repeat split; reflexivity|]. split; [exact I|]. split; [see_code|].
  split; [apply (form_by _ _ _ 71); vm_compute; reflexivity|]. split; [apply std_main; vm_compute; repeat split; reflexivity|]. split; [apply (form_by _ _ _ 71); vm_compute; reflexivity|].
  split; [see_code|]. split; [reflexivity|]. eexists. apply (evals_by 20); [vm_compute; reflexivity|discriminate].
Qed.

(** ** C40: quasiquote *)
Theorem C40_filled : forall st s p tok x q v st', form st p $"quasiquote" tok [x] -> standard st s $"quasiquote" -> plain x -> not_spliced_at st x ->
  filled s x (noted st s tok) [q] st' -> value_at q v -> evals p s st (Val (Some v)) st'.
Proof. exact quasi_value. Qed.
Print Assumptions C40_filled.
Theorem C40_identity : forall st s p tok x t, heap_numbered st -> form st p $"quasiquote" tok [x] -> standard st s $"quasiquote" -> plain x ->
  code_at st x t -> parsed t -> no_unquote t = true ->
  exists v st', evals p s st (Val (Some v)) st' /\ holds st' v t /\ only_adds (noted st s tok) st'.
Proof. exact quasi_identity. Qed.
Print Assumptions C40_identity.
Theorem C40_pair_refuted : exists v st', runs false false $"(str (quasiquote (1 (_unquote (+ 1 2)))))" [] fresh (Val (Some v)) st' /\ is_str v $"(1 (_unquote (+ 1 2)))".
Proof. exact pair_run. Qed.
Print Assumptions C40_pair_refuted.
Theorem C40_run : exists v st', runs false false $"(str (quasiquote (1 2 (_unquote (+ 1 2)) (_unquotesplicing (list 4 5)))))" [] fresh (Val (Some v)) st' /\ is_str v $"(1 2 3 4 5)".
Proof. exact triple_run. Qed.
Print Assumptions C40_run.
(** The template (1 2 (_unquote b)) with b = 10. *)
Example C40_ex : form macro_st (code_ 1 90) $"quasiquote" None [code_ 72 91] /\ standard macro_st main_sid $"quasiquote" /\ not_spliced_at macro_st (code_ 72 91) /\
  (exists q v st', filled main_sid (code_ 72 91) macro_st [q] st' /\ value_at q v) /\
  form macro_st (code_ 1 93) $"quasiquote" None [code_ 72 86] /\
  exists t, code_at macro_st (code_ 72 86) t /\ parsed t /\ no_unquote t = true.
Proof.
  split; [apply (form_by _ _ _ 71); vm_compute; reflexivity|]. split; [apply std_main; vm_compute; repeat split; reflexivity|].
  split; [intros i l h e EQ V; injection EQ as <- <-; vm_compute in V; discriminate V|]. split.
  - eexists _, _, _. split; [|right; eexists _, _; split; reflexivity].
    eapply fi_list; [vm_compute; reflexivity|discriminate| |reflexivity].
    eapply (fs_cons _ _ _ _ [_]); [apply fi_atom|]. eapply (fs_cons _ _ _ _ [_]); [apply fi_atom|]. eapply (fs_cons _ _ _ _ [_]); [|apply fs_nil].
    eapply fi_unquote; [vm_compute; reflexivity|eexists _, _; split; [reflexivity|split; reflexivity]|apply (evals_by 20); [vm_compute; reflexivity|discriminate]|split; reflexivity].
  - split; [apply (form_by _ _ _ 71); vm_compute; reflexivity|]. eexists. split; [see_code|]. split; [see_parsed|reflexivity].
Qed.

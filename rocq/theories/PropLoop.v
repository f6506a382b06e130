(** Property C81: the loop function of the standard library. *)
Require Import String Ascii List ZArith Bool Lia.
Require Import PArith FMapPositive.
From Verif Require Import Base CppString Num Token Value State Builtins Eval LispTop SpecLex SpecParse SpecRun SpecVal SpecNum SpecList SpecForm SpecMacro SpecRead SpecIo SpecLang SpecLib SpecLoop
  ReadProofs LoopProofs EachProofs.
Import ListNotations.

(** ** C81: foreach *)
(** The rule for calls of foreach: what holds before the first round and is carried from round to round holds at the end. *)
Theorem C81_rule : forall F g s st fn q i w j fv f n (I : sid -> nat -> state -> Prop), callable F st s g -> is_foreach st fn q -> is_fn fv f -> counts st w n -> fits (Z.of_nat n) ->
  (forall c, scope_at st c = None -> carries F g c q w f n (I c) /\ I c 0%nat st) ->
  exists c r st', calls fn [P i (OVar w); P j (OVar fv)] s st (Val r) st' /\ scope_at st c = None /\ I c n st' /\ loop_value n r /\ world F st' g.
Proof. exact foreach_rule. Qed.
Print Assumptions C81_rule.
Theorem C81_lines : forall inp files e modname defs ce v o0 ts l s ks, keeps_apart defs -> program_text (foreach_def :: defs) [Exp (Call $"foreach" [ce; Name $"println"])] l -> src_ok s -> src_kinds s ks -> writes_all l ks ->
  yields (with_foreach defs) empty_store ce v o0 -> iterable v -> short (elements v) -> Forall2 (fun u t => text_of u = Some t) (elements v) ts ->
  exists r st', runs false false (src_text s) modname (init_state inp files e) (Val r) st' /\ st_out st' = o0 ++ concat (map line ts) /\ loop_value (length (elements v)) r.
Proof. exact program_lines. Qed.
Print Assumptions C81_lines.
Theorem C81_calls : forall inp files e modname defs ce h x b v o0 os l s ks, keeps_apart defs -> program_text (foreach_def :: defs) [Exp (Call $"foreach" [ce; Name h])] l -> src_ok s -> src_kinds s ks -> writes_all l ks ->
  yields (with_foreach defs) empty_store ce v o0 -> iterable v -> short (elements v) -> with_foreach defs h = Some ([x], b) -> tidy (with_foreach defs) x ->
  Forall2 (fun u o => exists m' z r, does (with_foreach defs) (parameters_of [x] [u]) b m' z r o /\ z <> Nothing) (elements v) os ->
  exists r st', runs false false (src_text s) modname (init_state inp files e) (Val r) st' /\ st_out st' = o0 ++ concat os /\ loop_value (length (elements v)) r.
Proof. exact program_calls. Qed.
Print Assumptions C81_calls.
Theorem C81_numbers : forall inp files e modname zs, Forall fits zs -> short zs ->
  exists r st', runs false false (foreach_text ++ $" (foreach (list" ++ arguments (map z_to_string zs) ++ $") println)") modname (init_state inp files e) (Val r) st' /\
    st_out st' = concat (map line (map z_to_string zs)) /\ loop_value (length zs) r.
Proof. exact numbers_printed. Qed.
Print Assumptions C81_numbers.
Theorem C81_characters : forall inp files e modname t, bare_text t -> short t ->
  exists r st', runs false false (foreach_text ++ $" (foreach " ++ in_quotes t ++ $" println)") modname (init_state inp files e) (Val r) st' /\
    st_out st' = concat (map line (characters t)) /\ loop_value (length t) r.
Proof. exact characters_printed. Qed.
Print Assumptions C81_characters.
Theorem C81_every_element_refuted : exists st', runs false false (foreach_text ++ $" (def l (list 1 2 3)) (foreach l (lambda (x) (do (println x) (pop l))))") [] (init_state [] [] (Env (fun _ => true) None [])) (Undef UBIndex) st' /\
  st_out st' = line $"1" ++ line $"3".
Proof. exact shrinking_list. Qed.
Print Assumptions C81_every_element_refuted.
Theorem C81_last_value_refuted : exists w st', runs false false (foreach_text ++ $" (foreach (list 10 20) (lambda (x) (* x 2)))") [] (init_state [] [] (Env (fun _ => true) None [])) (Val (Some w)) st' /\ is_int w 2.
Proof. exact counter_value. Qed.
Print Assumptions C81_last_value_refuted.
Example C81_rule_ex : exists F g s st fn q w fv f (I : sid -> nat -> state -> Prop), callable F st s g /\ is_foreach st fn q /\ is_fn fv f /\ counts st w 2 /\ fits 2 /\
  (forall c, scope_at st c = None -> carries F g c q w f 2 (I c) /\ I c 0%nat st) /\ (forall c st', I c 2%nat st' -> st_out st' = line $"3" ++ line $"4").
Proof. exact rule_case. Qed.
Example C81_calls_ex : exists l s ks, src_text s = foreach_text ++ $" (defn square (x) (println (* x x))) (foreach (list 3 4) square)" /\ keeps_apart [square_def] /\
  program_text [foreach_def; square_def] [Exp (Call $"foreach" [two_numbers; Name $"square"])] l /\ src_ok s /\ src_kinds s ks /\ writes_all l ks /\
  yields (with_foreach [square_def]) empty_store two_numbers (ListV [NumV 3; NumV 4]) [] /\ with_foreach [square_def] $"square" = Some ([$"x"], Print (Prim $"*" [Name $"x"; Name $"x"])) /\ tidy (with_foreach [square_def]) $"x" /\
  Forall2 (fun u o => exists m' z r, does (with_foreach [square_def]) (parameters_of [$"x"] [u]) (Print (Prim $"*" [Name $"x"; Name $"x"])) m' z r o /\ z <> Nothing) [NumV 3; NumV 4] [line $"9"; line $"16"].
Proof. exact square_case. Qed.
Example C81_numbers_ex : Forall fits [-5; 0; 12]%Z /\ short [-5; 0; 12]%Z /\ foreach_text ++ $" (foreach (list" ++ arguments (map z_to_string [-5; 0; 12]%Z) ++ $") println)" = foreach_text ++ $" (foreach (list -5 0 12) println)" /\
  concat (map line (map z_to_string [-5; 0; 12]%Z)) = line $"-5" ++ line $"0" ++ line $"12" /\ (exists v, loop_value 3 (Some v) /\ is_int v 3).
Proof.
  split; [repeat constructor; unfold fits; lia|]. split; [unfold short; cbn; lia|]. split; [vm_compute; reflexivity|]. split; [vm_compute; reflexivity|]. exists (vint 3). split; [eexists; split; [reflexivity|]|]; split; reflexivity.
Qed.
Example C81_characters_ex : bare_text $"ab c" /\ short $"ab c" /\ concat (map line (characters $"ab c")) = line $"a" ++ line $"b" ++ line $" " ++ line $"c".
Proof. split; [repeat split; intros a H; cbn in H; intuition (subst; discriminate)|]. split; [unfold short; cbn; lia|vm_compute; reflexivity]. Qed.

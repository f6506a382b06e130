(** Property C78 (functions of the standard library). *)
Require Import String Ascii List ZArith Bool Lia.
From Verif Require Import Base CppString Num Token Value State LispTop SpecLex SpecParse SpecRun SpecVal SpecNum SpecMacro SpecRead SpecLang SpecLib
  LibProofs.
Import ListNotations.

(** ** C78: functions of the standard library *)
Theorem C78_find_number : forall inp files e modname k zs, fits k -> Forall fits zs -> short zs ->
  exists r, first_at k zs r /\ prints inp files e modname (library ++ $"(println (find " ++ z_to_string k ++ $" " ++ ($"(list" ++ arguments (map z_to_string zs) ++ $")") ++ $"))") (z_to_string r).
Proof. exact find_number. Qed.
Print Assumptions C78_find_number.
Theorem C78_find_text : forall inp files e modname u ts, bare_text u -> Forall bare_text ts -> short ts ->
  exists r, first_at u ts r /\ prints inp files e modname (library ++ $"(println (find " ++ in_quotes u ++ $" " ++ ($"(list" ++ arguments (map in_quotes ts) ++ $")") ++ $"))") (z_to_string r).
Proof. exact find_text. Qed.
Print Assumptions C78_find_text.
Theorem C78_find_character : forall inp files e modname u t, bare_text u -> bare_text t -> short t ->
  exists r, first_at u (characters t) r /\ prints inp files e modname (library ++ $"(println (find " ++ in_quotes u ++ $" " ++ in_quotes t ++ $"))") (z_to_string r).
Proof. exact find_character. Qed.
Print Assumptions C78_find_character.
Theorem C78_second_number : forall inp files e modname a b zs, Forall fits (a :: b :: zs) ->
  prints inp files e modname (library ++ $"(println (second " ++ ($"(list" ++ arguments (map z_to_string (a :: b :: zs)) ++ $")") ++ $"))") (z_to_string b).
Proof. exact second_number. Qed.
Print Assumptions C78_second_number.
Theorem C78_second_character : forall inp files e modname c t, bare_text (c :: t) -> short t -> prints inp files e modname (library ++ $"(println (second " ++ in_quotes (c :: t) ++ $"))") (firstn 1 t).
Proof. exact second_character. Qed.
Print Assumptions C78_second_character.
Theorem C78_length_numbers : forall inp files e modname f zs, In f [$"length"; $"strlen"] -> Forall fits zs -> short zs ->
  prints inp files e modname (library ++ $"(println (" ++ f ++ $" " ++ ($"(list" ++ arguments (map z_to_string zs) ++ $")") ++ $"))") (z_to_string (Z.of_nat (length zs))).
Proof. exact length_numbers. Qed.
Print Assumptions C78_length_numbers.
Theorem C78_length_text : forall inp files e modname f t, In f [$"length"; $"strlen"] -> bare_text t -> short t ->
  prints inp files e modname (library ++ $"(println (" ++ f ++ $" " ++ in_quotes t ++ $"))") (z_to_string (Z.of_nat (length t))).
Proof. exact length_text. Qed.
Print Assumptions C78_length_text.
Example C78_find_ex : fits 7 /\ Forall fits [5; 7; 7]%Z /\ short [5; 7; 7]%Z /\ first_at 7%Z [5; 7; 7]%Z 1 /\ first_at 8%Z [5; 7; 7]%Z (-1).
Proof.
  unfold fits, short, first_at. split; [lia|]. split; [repeat constructor; lia|]. split; [cbn; lia|]. split; [right; exists 1%nat|left]; (split; [reflexivity|]).
  - split; [reflexivity|]. cbn. lia.
  - cbn. lia.
Qed.
Example C78_text_ex : bare_text $"b" /\ Forall bare_text [$"a"; $"b"] /\ short $"ab" /\ first_at $"b" [$"a"; $"b"] 1 /\ first_at $"b" (characters $"ab") 1 /\ In $"length" [$"length"; $"strlen"].
Proof.
  split; [reflexivity|]. split; [repeat constructor|]. split; [cbn; unfold short; cbn; lia|].
  assert (F : first_at $"b" [$"a"; $"b"] 1) by (right; exists 1%nat; split; [reflexivity|]; split; [reflexivity|]; cbn; intuition discriminate).
  split; [exact F|]. split; [exact F|left; reflexivity].
Qed.

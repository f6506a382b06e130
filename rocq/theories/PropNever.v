(** Property C85: loops that never end. *)
Require Import String Ascii List ZArith Bool Lia.
Require Import PArith FMapPositive.
From Verif Require Import Base CppString Num Token Value State Builtins Eval LispTop SpecLex SpecParse SpecRun SpecVal SpecNum SpecList SpecForm SpecCalc SpecMacro SpecRead SpecIo SpecLang SpecNever
  ReadProofs LangProofs ProgProofs SampleProofs NeverProofs.
Import ListNotations.

(** ** C85: loops that never end *)
Theorem C85_statement : forall F st g s p m b, world F st g -> frame F st s g m -> leaving st s false -> stm_at st p b -> never F m b -> forall o st', ~ evals p s st o st'.
Proof. exact statement_never. Qed.
Print Assumptions C85_statement.
Theorem C85_program : forall inp files e modname defs ss l s ks, well_named defs -> program_text defs ss l -> src_ok s -> src_kinds s ks -> writes_all l ks ->
  never_all (table defs) empty_store ss -> forall o st', ~ runs false false (src_text s) modname (init_state inp files e) o st'.
Proof. exact program_never. Qed.
Print Assumptions C85_program.
Theorem C85_saved : forall inp files e vb modname defs ss l s ks, well_named defs -> program_text defs ss l -> src_ok s -> src_kinds s ks -> writes_all l ks ->
  never_all (table defs) empty_store ss -> forall o st', ~ saves vb false false (src_text s) modname (init_state inp files e) o st'.
Proof. exact program_never_saved. Qed.
Print Assumptions C85_saved.
Theorem C85_unchanged : forall inp files e modname a n, fits a -> fits n ->
  (exists o st', runs false false ($"(def i " ++ z_to_string a ++ $") (while (< i " ++ z_to_string n ++ $") (println i))") modname (init_state inp files e) o st') <-> (n <= a)%Z.
Proof. exact still_loop. Qed.
Print Assumptions C85_unchanged.
(** The condition of the loop in (spin 7) is true in every round. *)
Example C85_statement_ex : exists st p, world (table spin_defs) st main_sid /\ frame (table spin_defs) st main_sid main_sid empty_store /\ leaving st main_sid false /\
  stm_at st p spin_line /\ never (table spin_defs) empty_store spin_line.
Proof. exact ex_never_statement. Qed.
Example C85_program_ex : exists s ks, src_text s = $"(defn spin (n) (while (> n 0) (println n))) (println (+ 1 (spin 7)))" /\ src_ok s /\ src_kinds s ks /\ writes_all (map data_expr spin_code) ks /\ well_named spin_defs /\
  program_text spin_defs spin_prog (map data_expr spin_code) /\ never_all (table spin_defs) empty_store spin_prog.
Proof. exact ex_never_program. Qed.
Example C85_unchanged_ex : (fits 3 /\ fits 5 /\ ~ (5 <= 3)%Z) /\ $"(def i " ++ z_to_string 3 ++ $") (while (< i " ++ z_to_string 5 ++ $") (println i))" = $"(def i 3) (while (< i 5) (println i))".
Proof. split; [unfold fits; lia|reflexivity]. Qed.

(** Properties C60 (defining functions) and C61 (programs compute what they mean). *)
Require Import String Ascii List ZArith Bool Lia.
Require Import PArith FMapPositive.
From Verif Require Import Base CppString Num Token Value State Show ScopeOps Builtins Table Eval LispTop SpecLex SpecParse SpecRun SpecVal SpecNum SpecList SpecForm SpecCalc SpecMacro SpecRead SpecIo SpecLang
  BuiltinProofs RunProofs ErrProofs ListProofs FormProofs QuoteProofs ReadProofs LangProofs DefnProofs ProgProofs SampleProofs.
Import ListNotations.

(** ** C60: defining functions *)
Theorem C60_defn : forall name0 name1 st s sc p tok a0 a1 a2 i w name names, (name0, name1) = ($"defn", $"def") \/ (name0, name1) = ($"gdefn", $"gdef") ->
  form st p name0 tok [a0; a1; a2] -> standard st s name0 -> global_word st s $"fn" -> global_word st s name1 -> scope_at st s = Some sc -> scope_exists st (s_global sc) ->
  a0 = P i (OVar w) -> is_sym w name -> parameters st a1 names -> Forall (fun n => n <> []) names -> plain a1 -> plain a2 ->
  exists v fn st2 st', evals p s st (Val (Some v)) st' /\ is_fn v fn /\ fn_code fn = CClosure name (s_module sc) [a1; a2] s /\ fn_sp fn = false /\ fn_ex fn = false /\
    fn_sig fn = signature name names /\ documents (s_tokens sc) (v_tok w) (fn_doc fn) /\
    described (noted st s tok) st2 s (fn_sig fn, fn_doc fn) /\ var_becomes st2 st' (if list_eq_dec ascii_dec name0 $"defn" then s else s_global sc) name v.
Proof. exact defn_defines. Qed.
Print Assumptions C60_defn.
Definition defn_text : str := $"(quote (defn f (x y) (+ x y)))".
Definition defn_st : state := snd (eval_script 40 false false defn_text [] fresh).
Example C60_ex : exists tok i0 w a1 a2, form defn_st (P 1%positive (OList 13%positive)) $"defn" tok [P i0 (OVar w); a1; a2] /\ standard defn_st main_sid $"defn" /\ global_word defn_st main_sid $"fn" /\ global_word defn_st main_sid $"def" /\
  scope_exists defn_st main_sid /\ is_sym w $"f" /\ parameters defn_st a1 [$"x"; $"y"] /\ Forall (fun n => n <> []) [$"x"; $"y"] /\ plain a1 /\ plain a2.
Proof.
  do 5 eexists. split; [eexists; eexists; split; [left; eexists; eexists; split; [reflexivity|vm_compute; reflexivity]|split; [split; reflexivity|reflexivity]]|].
  split; [apply std_main; vm_compute; repeat split; reflexivity|]. split; [eexists _, _, _, _; split; [vm_compute; reflexivity|]; split; [vm_compute; reflexivity|]; split; [split; reflexivity|vm_compute; reflexivity]|].
  split; [eexists _, _, _, _; split; [vm_compute; reflexivity|]; split; [vm_compute; reflexivity|]; split; [split; reflexivity|vm_compute; reflexivity]|].
  split; [apply main_here; vm_compute; exact I|]. split; [split; reflexivity|].
  split; [eexists; split; [left; eexists; eexists; split; [reflexivity|vm_compute; reflexivity]|repeat (apply Forall2_cons; [eexists; eexists; split; [reflexivity|split; reflexivity]|]); apply Forall2_nil]|].
  split; [repeat constructor; discriminate|]. split; exact I.
Qed.

(** ** C61: programs compute what they mean *)
Theorem C61_statement : forall F m b m' v r o g st s p, does F m b m' v r o -> world F st g -> frame F st s g m -> leaving st s false -> stm_at st p b ->
  exists w st', evals p s st (Val w) st' /\ (forall o2 st2, evals p s st o2 st2 -> o2 = Val w /\ st2 = st') /\
    res_is st' w v /\ keeps (eq s) (its_variables F s) st st' /\ world F st' g /\ frame F st' s g m' /\ leaving st' s r /\ st_out st' = st_out st ++ o.
Proof. exact statement_runs. Qed.
Print Assumptions C61_statement.
Theorem C61_program : forall inp files e modname defs ss l s ks m' v r o, well_named defs -> program_text defs ss l -> ss <> [] -> src_ok s -> src_kinds s ks -> writes_all l ks ->
  do_all (table defs) empty_store ss NoV m' v r o ->
  exists w st', runs false false (src_text s) modname (init_state inp files e) (Val w) st' /\
    (forall o2 st2, runs false false (src_text s) modname (init_state inp files e) o2 st2 -> o2 = Val w /\ st2 = st') /\
    res_is st' w v /\ st_out st' = o /\ (forall x u, m' x = Some u -> exists i z, var_at st' main_sid x = Some (P i (OVar z)) /\ val_is st' z u) /\
    st_in st' = inp /\ st_files st' = files /\ st_env st' = e.
Proof. exact program_runs_only. Qed.
Print Assumptions C61_program.
Theorem C61_fibonacci : forall inp files e modname n, (n <= 46)%nat ->
  exists w st', runs false false ($"(defn fib (n) (if (< n 2) n (+ (fib (- n 1)) (fib (- n 2))))) (println (fib " ++ z_to_string (Z.of_nat n) ++ $"))") modname (init_state inp files e) (Val (Some w)) st' /\
    is_str w (z_to_string (fib n)) /\ st_out st' = z_to_string (fib n) ++ [c_nl].
Proof. exact fib_program. Qed.
Print Assumptions C61_fibonacci.
Theorem C61_gcd : forall inp files e modname a b, (0 <= a)%Z -> fits a -> (0 <= b)%Z -> fits b ->
  exists w st', runs false false ($"(defn gcd (a b) (do (while (> b 0) (do (def t (% a b)) (setf a b) (setf b t))) (return a))) (println (gcd " ++ z_to_string a ++ $" " ++ z_to_string b ++ $"))") modname
    (init_state inp files e) (Val (Some w)) st' /\
    is_str w (z_to_string (Z.gcd a b)) /\ st_out st' = z_to_string (Z.gcd a b) ++ [c_nl].
Proof. exact gcd_program. Qed.
Print Assumptions C61_gcd.
Theorem C61_squares : forall inp files e modname zs, fits (squares zs) ->
  exists w st', runs false false ($"(defn square (x) (* x x)) (println (reduce + (map square (list" ++ concat (map (fun z => $" " ++ z_to_string z) zs) ++ $")) 0))") modname (init_state inp files e) (Val (Some w)) st' /\
    is_str w (z_to_string (squares zs)) /\ st_out st' = z_to_string (squares zs) ++ [c_nl].
Proof. exact squares_program. Qed.
Print Assumptions C61_squares.
Example C61_squares_ex : fits (squares [3; -4; 12]%Z) /\ squares [3; -4; 12]%Z = 169%Z.
Proof. split; [unfold fits; vm_compute; split; discriminate|reflexivity]. Qed.
Example C61_program_ex : exists s ks m', src_text s = $"(def x 5) (while (> x 0) (setf x (- x 1))) (println x)" /\ src_ok s /\ src_kinds s ks /\ writes_all (map data_expr ex_code) ks /\ well_named [] /\
  program_text [] ex_prog (map data_expr ex_code) /\ do_all (table []) empty_store ex_prog NoV m' (TextV $"0") false ($"0" ++ [c_nl]).
Proof. exact ex_program. Qed.
Example C61_statement_ex : exists st p m' v r o, world (table fib_defs) st main_sid /\ frame (table fib_defs) st main_sid main_sid empty_store /\ leaving st main_sid false /\
  stm_at st p (Print (Call $"fib" [Const (NumV 9)])) /\ does (table fib_defs) empty_store (Print (Call $"fib" [Const (NumV 9)])) m' v r o.
Proof. exact ex_statement. Qed.

(** Properties C76 and C77: computed names of definitions, and import. *)
Require Import String Ascii List ZArith Bool Lia.
Require Import PArith FMapPositive.
From Verif Require Import Base CppString Num Token Value State Builtins Eval LispTop SpecRun SpecVal SpecList SpecForm SpecCall SpecIo SpecMod
  RunProofs BuiltinProofs ErrProofs FormProofs CallProofs ModProofs.
Import ListNotations.

(** ** C76: names of definitions *)
Theorem C76_def : forall st s p word tok a0 a1 tgt w st1 name v st2, numbered st -> form st p word tok [a0; a1] -> standard st s word -> plain a0 -> plain a1 -> defines_in st s word tgt ->
  name_given s a0 (noted st s tok) w st1 -> is_sym w name \/ is_str w name -> evals a1 s st1 (Val (Some v)) st2 ->
  exists st', evals p s st (Val (Some v)) st' /\ var_becomes st2 st' tgt name v.
Proof. exact def_named. Qed.
Print Assumptions C76_def.
Theorem C76_no_name : forall st s p word tok a0 a1 tgt w st1, form st p word tok [a0; a1] -> standard st s word -> plain a0 -> plain a1 -> defines_in st s word tgt ->
  name_given s a0 (noted st s tok) w st1 -> v_ty w <> TSym -> v_ty w <> TString -> printable st1 s ->
  exists info, evals p s st (Throw (ELisp $"Symbol expected" info)) st1.
Proof. exact def_no_name. Qed.
Print Assumptions C76_no_name.
Theorem C76_name_fails : forall st s p word tok i l a1 tgt o o' st1, form st p word tok [P i (OList l); a1] -> standard st s word -> plain a1 -> defines_in st s word tgt ->
  evals (P i (OList l)) s (noted st s tok) o st1 -> fails o o' -> evals p s st o' st1.
Proof. exact def_name_fails. Qed.
Print Assumptions C76_name_fails.
Theorem C76_value_fails : forall st s p word tok a0 a1 tgt w st1 name o o' st2, form st p word tok [a0; a1] -> standard st s word -> plain a0 -> plain a1 -> defines_in st s word tgt ->
  name_given s a0 (noted st s tok) w st1 -> is_sym w name \/ is_str w name -> evals a1 s st1 o st2 -> fails o o' -> evals p s st o' st2.
Proof. exact def_value_fails. Qed.
Print Assumptions C76_value_fails.
Example C76_ex : numbered mod_st /\ form mod_st (code_ 1 71) $"def" None [str_ 72 $"x"; int_ 73 3] /\ standard mod_st main_sid $"def" /\ plain (str_ 72 $"x") /\ defines_in mod_st main_sid $"def" main_sid /\
  name_given main_sid (str_ 72 $"x") mod_st (vstr $"x") mod_st /\ is_str (vstr $"x") $"x" /\
  form mod_st (code_ 1 72) $"def" None [code_ 72 73; int_ 73 3] /\ (exists w st1, name_given main_sid (code_ 72 73) mod_st w st1 /\ is_str w $"ab" /\ evals (int_ 73 3) main_sid st1 (Val (Some (vint 3))) st1).
Proof.
  split; [unfold mod_st; apply numbered_code, reachable_numbered, reach_init|]. split; [apply (form_by _ _ _ 71); vm_compute; reflexivity|].
  split; [apply std_main; vm_compute; repeat split; reflexivity|]. split; [left; discriminate|]. split; [apply di_own, main_here; vm_compute; exact Logic.I|]. split; [apply ng_value|]. split; [split; reflexivity|].
  split; [apply (form_by _ _ _ 71); vm_compute; reflexivity|]. eexists. exists (snd (r_eval (run 20) (code_ 72 73) main_sid mod_st)). split; [apply ng_computed; apply (evals_by 20); [vm_compute; reflexivity|discriminate]|].
  split; [split; reflexivity|]. apply eval_atom; discriminate.
Qed.
Example C76_no_name_ex : form mod_st (code_ 1 74) $"gdef" None [int_ 72 1; int_ 73 3] /\ standard mod_st main_sid $"gdef" /\ defines_in mod_st main_sid $"gdef" main_sid /\
  name_given main_sid (int_ 72 1) mod_st (vint 1) mod_st /\ printable mod_st main_sid.
Proof.
  split; [apply (form_by _ _ _ 71); vm_compute; reflexivity|]. split; [apply std_main; vm_compute; repeat split; reflexivity|].
  split. { assert (E : scope_at mod_st main_sid = Some (scope_of mod_st main_sid)) by (apply scope_of_at; vm_compute; discriminate). pose proof (di_global mod_st main_sid _ E) as D. exact D. }
  split; [apply ng_value|]. apply main_scope. vm_compute. repeat split; try discriminate; intuition discriminate.
Qed.
Example C76_fails_ex : form mod_st (code_ 1 75) $"def" None [code_ 72 76; int_ 73 3] /\ exists e st1, evals (code_ 72 76) main_sid mod_st (Throw e) st1.
Proof. split; [apply (form_by _ _ _ 71); vm_compute; reflexivity|]. eexists. eexists. apply (evals_by 20); [vm_compute; reflexivity|discriminate]. Qed.

(** ** C77: import *)
Theorem C77_import : forall i v t s st ns file text sc, is_sym v t \/ is_str v t -> tried (st_env st) (slashes t) ns -> first_file st ns file text -> text <> [] -> file <> [] ->
  numbered st -> scope_at st s = Some sc -> scope_exists st (s_global sc) ->
  exists m st1, import_opened st st1 s m file /\
    (forall r st2 ms, runs_in m text file st1 (Val r) st2 -> modules_in st2 (s_global sc) ms -> ms <> s -> ms <> m ->
      exists st3, builtin_call $"import" [P i (OVar v)] s st (Val r) st3 /\ import_closed st2 st3 s m file) /\
    (forall o st2, runs_in m text file st1 o st2 -> (forall r, o <> Val r) -> builtin_call $"import" [P i (OVar v)] s st o st2).
Proof. exact import_ok. Qed.
Print Assumptions C77_import.
Theorem C77_empty : forall i v t s st ns file, is_sym v t \/ is_str v t -> tried (st_env st) (slashes t) ns -> first_file st ns file [] ->
  exists r, builtin_call $"import" [P i (OVar v)] s st (Val (Some r)) st /\ v_ty r = TUndef.
Proof. exact import_empty. Qed.
Print Assumptions C77_empty.
Theorem C77_missing : forall i v t s st ns, is_sym v t \/ is_str v t -> tried (st_env st) (slashes t) ns -> Forall (fun n => content st n None) ns -> fine_text (slashes t) -> fine_text (last ns []) ->
  exists r, builtin_call $"import" [P i (OVar v)] s st (Val (Some r)) (written_out st ($"WARNING: Library " ++ slashes t ++ $" not found! Tried path " ++ last ns [] ++ [c_nl])) /\ v_ty r = TUndef.
Proof. exact import_missing. Qed.
Print Assumptions C77_missing.
Theorem C77_several : forall p q ps s st r st1 o st2, builtin_call $"import" [p] s st (Val r) st1 -> builtin_call $"import" (q :: ps) s st1 o st2 ->
  exists o', builtin_call $"import" (p :: q :: ps) s st o' st2 /\ (o' = o \/ exists w, o = Val (Some w) /\ v_ty w = TUndef /\ o' = Val r).
Proof. exact import_several. Qed.
Print Assumptions C77_several.
Theorem C77_stops : forall p ps s st o st1, builtin_call $"import" [p] s st o st1 -> (forall r, o <> Val r) -> builtin_call $"import" (p :: ps) s st o st1.
Proof. exact import_stops. Qed.
Print Assumptions C77_stops.
Theorem C77_some_files : forall e org, exists ns, tried e org ns.
Proof. exact tried_total. Qed.
Print Assumptions C77_some_files.
Theorem C77_copy_refuted : exists w st', runs false false $"(import ""m"") (inc) (inc) (+ counter 0)" [] mod_st (Val (Some w)) st' /\ is_int w 0.
Proof. exact import_copies. Qed.
Print Assumptions C77_copy_refuted.
Theorem C77_here_refuted : exists w st', runs false false $"(import ""m"")" [] (init_state [] [($"m.fuel", $"(def a 1)")] (Env (fun _ => true) None $"/lib")) (Val (Some w)) st' /\ v_ty w = TUndef /\
  st_out st' = $"WARNING: Library m not found! Tried path ./lib/fuel/m.fuel" ++ [c_nl].
Proof. exact import_here. Qed.
Print Assumptions C77_here_refuted.
Example C77_ex : let ns := [$"m"; $"/lib/m.fuel"; $"./Library/m.fuel"; $"./lib/fuel/m.fuel"] in
  tried (st_env mod_st) (slashes $"m") ns /\ first_file mod_st ns $"./Library/m.fuel" mod_text /\ numbered mod_st /\ scope_at mod_st main_sid = Some (scope_of mod_st main_sid) /\
  scope_exists mod_st (s_global (scope_of mod_st main_sid)) /\ slashes [ "a"%char; ascii_of_nat 92; "b"%char] = $"a/b".
Proof.
  cbv zeta. split. { apply tr_files; [reflexivity|apply (ex_added $"/lib/m")|apply (ex_added $"./Library/m")|apply (ex_added $"./lib/fuel/m")];
    intros a E; assert (K : CppString.EndsWith (a ++ $".fuel") $".fuel" = true) by (apply ends_with_spec; exists a; reflexivity); rewrite <- E in K; vm_compute in K; discriminate. }
  split. { apply ff_next; [exists $"m"; split; [apply sn_all; cbn; intuition discriminate|reflexivity]|]. apply ff_next; [exists $"/lib/m.fuel"; split; [apply sn_all; cbn; intuition discriminate|reflexivity]|].
    apply ff_here. exists $"./Library/m.fuel". split; [apply sn_all; cbn; intuition discriminate|reflexivity]. }
  split; [unfold mod_st; apply numbered_code, reachable_numbered, reach_init|]. split; [apply scope_of_at; vm_compute; discriminate|]. split; [apply main_here; vm_compute; exact Logic.I|reflexivity].
Qed.
(** The text of the example as a module: its run ends, and the modules are where they should be. *)
Example C77_run_ex : exists m st1 r st2 ms, import_opened mod_st st1 main_sid m $"./Library/m.fuel" /\ runs_in m mod_text $"./Library/m.fuel" st1 (Val r) st2 /\ modules_in st2 main_sid ms /\ ms <> main_sid /\ ms <> m.
Proof.
  set (sc := scope_of mod_st main_sid). assert (H : scope_at mod_st main_sid = Some sc) by (apply scope_of_at; vm_compute; discriminate).
  exists (st_nsid mod_st), (opened mod_st main_sid sc $"./Library/m.fuel"). eexists. eexists. eexists.
  split; [apply opened_ok; [unfold mod_st; apply numbered_code, reachable_numbered, reach_init|exact H]|].
  split; [exists 40%nat; split; [vm_compute; reflexivity|discriminate]|]. split; [eexists; split; [vm_compute; reflexivity|eexists; vm_compute; reflexivity]|]. split; vm_compute; discriminate.
Qed.
Example C77_empty_ex : first_file mod_st [$"empty"; $"/lib/empty.fuel"] $"empty" [].
Proof. apply ff_here. exists $"empty". split; [apply sn_all; cbn; intuition discriminate|reflexivity]. Qed.
Example C77_missing_ex : Forall (fun n => content mod_st n None) [$"x"; $"/lib/x.fuel"; $"./Library/x.fuel"; $"./lib/fuel/x.fuel"] /\ fine_text $"x" /\ fine_text $"./lib/fuel/x.fuel".
Proof.
  split; [|split; (split; [cbn; intuition discriminate|discriminate])].
  repeat (constructor; [match goal with |- content _ ?n _ => exists n; split; [apply sn_all; cbn; intuition discriminate|reflexivity] end|]). constructor.
Qed.

(** Property C82: the documentation of functions. *)
Require Import String Ascii List ZArith Bool Lia.
Require Import PArith FMapPositive.
From Verif Require Import Base CppString Num Token Value State Builtins Eval LispTop SpecRun SpecVal SpecForm SpecDoc ErrProofs DocProofs.
Import ListNotations.

(** ** C82: doc, searchdoc and htmldoc *)
Theorem C82_title : forall sig, exists n, title sig n.
Proof. exact title_total. Qed.
Print Assumptions C82_title.
Theorem C82_title_unique : forall sig a b, title sig a -> title sig b -> a = b.
Proof. exact title_unique. Qed.
Print Assumptions C82_title_unique.
Theorem C82_found : forall name wanted ps ns tss s sc st, searches name wanted -> ps <> [] -> Forall2 word_arg ps ns -> macros_are st s [] -> scope_at st s = Some sc ->
  Forall2 (fun n ts => listing (wanted n) (s_vars sc) ts) ns tss -> ~ In "{"%char (concat (concat tss)) -> builtin_pure name ps s st (fun r => is_str r (ended (concat (concat tss)))).
Proof. exact doc_found. Qed.
Print Assumptions C82_found.
Theorem C82_listing : forall name wanted n vs, searches name wanted -> (forall k p, In (k, p) vs -> wanted n k -> exists i v f, p = P i (OVar v) /\ is_fn v f) -> exists ts, listing (wanted n) vs ts.
Proof. exact doc_listing. Qed.
Print Assumptions C82_listing.
Theorem C82_all : forall name wanted ts s sc gsc st, searches name wanted -> scope_at st s = Some sc -> scope_at st (s_global sc) = Some gsc -> overview entry_of (s_vars gsc) ts ->
  builtin_pure name [] s st (fun r => is_str r (concat (map ended ts))).
Proof. exact doc_all. Qed.
Print Assumptions C82_all.
Theorem C82_html : forall ps ts s sc gsc st, scope_at st s = Some sc -> scope_at st (s_global sc) = Some gsc -> overview html_of (s_vars gsc) ts ->
  builtin_pure $"htmldoc" ps s st (fun r => is_str r (html_page (concat (map ended ts)))).
Proof. exact html_all. Qed.
Print Assumptions C82_html.
Theorem C82_fresh : forall inp files e name wanted, searches name wanted -> exists ts, overview entry_of (fst main_vars) ts /\ length ts = 141%nat /\
  builtin_pure name [] main_sid (init_state inp files e) (fun r => is_str r (concat (map ended ts))).
Proof. exact doc_fresh. Qed.
Print Assumptions C82_fresh.
Theorem C82_html_fresh : forall inp files e ps, exists ts, overview html_of (fst main_vars) ts /\ builtin_pure $"htmldoc" ps main_sid (init_state inp files e) (fun r => is_str r (html_page (concat (map ended ts)))).
Proof. exact html_fresh. Qed.
Print Assumptions C82_html_fresh.
Theorem C82_crash : forall name wanted p ps n ts s sc st k i o ms, searches name wanted -> word_arg p n -> macros_are st s ((k, P i o) :: ms) -> (forall u, o <> OScope u) -> scope_at st s = Some sc ->
  listing (wanted n) (s_vars sc) ts -> builtin_call name (p :: ps) s st (Undef UBNullDeref) st.
Proof. exact doc_crashes. Qed.
Print Assumptions C82_crash.
Theorem C82_symbol_refuted : exists w st', runs false false $"(doc println)" [] (init_state [] [] (Env (fun _ => true) None [])) (Val (Some w)) st' /\ is_str w [c_nl].
Proof. exact doc_of_symbol. Qed.
Print Assumptions C82_symbol_refuted.
Theorem C82_function_refuted : exists w st', runs false false $"(defn f (x) (doc ""print"")) (f 1)" [] (init_state [] [] (Env (fun _ => true) None [])) (Val (Some w)) st' /\ is_str w [c_nl].
Proof. exact doc_in_function. Qed.
Print Assumptions C82_function_refuted.
Theorem C82_macro_refuted : exists st', runs false false $"(define-macro-eval m (x) (+ x 1)) (doc ""print"")" [] (init_state [] [] (Env (fun _ => true) None [])) (Undef UBNullDeref) st'.
Proof. exact doc_with_macro. Qed.
Print Assumptions C82_macro_refuted.
Theorem C82_variable_refuted : exists i st', runs false false $"(def prix 3) (doc ""pri"")" [] (init_state [] [] (Env (fun _ => true) None [])) (Throw (ELisp $"Invalid cast for function, value=3 not found" i)) st'.
Proof. exact doc_of_variable. Qed.
Print Assumptions C82_variable_refuted.
Example C82_title_ex : title $"(println expr1 expr2 ...)" $"println " /\ title $"(help)" $"help" /\ title $"(f" $"f" /\ title [] $"???".
Proof.
  split; [apply (ti_blank $"println" $"expr1 expr2 ...)"); cbn; intuition discriminate|]. split; [apply (ti_closed $"help" []); cbn; intuition discriminate|].
  split; [apply (ti_open $"f"); cbn; intuition discriminate|apply ti_none; intros r H; discriminate H].
Qed.
Example C82_found_ex : let st := init_state [] [] (Env (fun _ => true) None []) in let p := P 1 (OVar (vstr $"print")) in
  exists sc, searches $"doc" starts_with /\ word_arg p $"print" /\ macros_are st main_sid [] /\ scope_at st main_sid = Some sc /\ Forall2 (fun n ts => listing (starts_with n) (s_vars sc) ts) [$"print"] [print_entries] /\
    ~ In "{"%char (concat (concat [print_entries])) /\ length print_entries = 2%nat.
Proof. exact doc_case. Qed.

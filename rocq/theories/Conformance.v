(** Tests of the model, not proofs of properties: scripts of InterpreterTests.cpp with the
    results these tests expect.  [run_test] shows the type and text of the value of
    a script, or the exception. *)
Require Import String Ascii List ZArith Bool.
From Verif Require Import Base CppString Num Token Tokenizer Parser Value State Show ScopeOps Builtins Table Eval LispTop.
Import ListNotations.

Definition test_env : env := Env (fun _ => true) None $".".
Definition show_exn (e : exn) : str :=
  match e with
  | ELisp m i => $"ELisp " ++ m ++ $" @" ++ z_to_string (ei_line i) ++ $"," ++ z_to_string (ei_start i) ++
                 $"," ++ z_to_string (ei_stop i)
  | ELispBase m => $"EBase " ++ m
  | EOutOfRange => $"out_of_range"
  | EInvalidArg => $"invalid_argument"
  | EStopDebugger => $"stop"
  end.
Definition run_test (code : string) : string := string_of_list_ascii (
  let m := (let! r := eval_script 200 false false (list_ascii_of_string code) [] in
     match r with
     | None => ret $"NULL"
     | Some v =>
       let! t := reads (var_str v) in let! ty := lift (type_string v) in ret (ty ++ $" " ++ t)
     end) in
  match fst (m (init_state [] [] test_env)) with
  | Val t => t
  | Throw e => show_exn e
  | Undef _ => $"UNDEFINED"
  | Unmod w => $"NOT MODELLED " ++ w
  | NoFuel => $"NO FUEL"
  end).

Definition tests : list (string * string) := [
  (* Test_Comments *)
  ("(do (println ""hello"") ; a comment
(println; separate lists with comments
""world""));comment in last line"%string,
   "String world"%string);
  (* Test_DoAndPrint *)
  ("(do (println ""hello"")
 (println ""world""))"%string,
   "String world"%string);
  (* Test_PrintLnMultilines *)
  ("(do (println ""hello
world""))"%string,
   "String hello
world"%string);
  (* Test_PrintLnUnknownSymbol *)
  ("(do (println blub))"%string,
   "String blub"%string);
  (* Test_PrintTrace *)
  ("(do (trace #t) (println ""hello world"") (println (+ 9 8)) (gettrace))"%string,
   "String hello world17"%string);
  (* Test_If1 *)
  ("(if #t (+ 1 2) (- 3 5))"%string,
   "Int 3"%string);
  (* Test_If2 *)
  ("(if #f (* 1 0) (/ 6 3))"%string,
   "Int 2"%string);
  (* Test_If3 *)
  ("(if true 1 0)"%string,
   "Int 1"%string);
  (* Test_If4 *)
  ("(if false 1 0)"%string,
   "Int 0"%string);
  (* Test_If5 *)
  ("(if true 1)"%string,
   "Int 1"%string);
  (* Test_If5 *)
  ("(if false 1)"%string,
   "NULL"%string);
  (* Test_Setf1 *)
  ("(do (def a 1) (def b 1) (setf (first (list 'a 'b 'c)) 9))"%string,
   "Int 9"%string);
  (* Test_SetfWithNth *)
  ("(do (def l '(a b c d)) (setf (nth 2 l) 9) (print l))"%string,
   "String (a b 9 d)"%string);
  (* Test_SetfWithFirst *)
  ("(do (def l '(a b c d)) (setf (first l) 21) (print l))"%string,
   "String (21 b c d)"%string);
  (* Test_SetfWithLast *)
  ("(do (def l '(a b c d)) (setf (last l) ""xyz"") (print l))"%string,
   "String (a b c ""xyz"")"%string);
  (* Test_QuoteList *)
  ("(do (def a 1) (def l '(a b c)))"%string,
   "List (a b c)"%string);
  (* Test_Def1 *)
  ("(do (def a 1) (def b 1) (def (nth 2 (list 'a 'b 'c)) 9) (+ c 2))"%string,
   "Int 11"%string);
  (* Test_DefWithNil *)
  ("(do (def a nil) (println a))"%string,
   "String NIL"%string);
  (* Test_Fn *)
  ("(do (def f (fn (x) (+ x x 1))) (println (f 8)))"%string,
   "String 17"%string);
  (* Test_Gdef *)
  ("(do (defn f (x) (gdef z (+ x x))) (f 8) (println z))"%string,
   "String 16"%string);
  (* Test_Gdefn *)
  ("(do (defn f (x) (gdefn g (x) (+ x x))) (f 2) (g 8))"%string,
   "Int 16"%string);
  (* Test_Eval1 *)
  ("(eval (list 'def 'x 43))"%string,
   "Int 43"%string);
  (* Test_Eval2 *)
  ("(eval '(def x 456))"%string,
   "Int 456"%string);
  (* Test_Eval3 *)
  ("(eval #t)"%string,
   "Bool #t"%string);
  (* Test_Eval3 *)
  ("(eval 42)"%string,
   "Int 42"%string);
  (* Test_EvalStr *)
  ("(evalstr ""(def x 456)"")"%string,
   "Int 456"%string);
  (* Test_DocForDefn *)
  ("; this is a fcn documenataion
(defn blub (x) (+ x 1))
(doc 'blub)"%string,
   "String -------------------------------------------------

blub 

Syntax: (blub x)

; this is a fcn documenataion




"%string);
  (* Test_NoAutoDocForDefn *)
  ("(defn blub (x y ) (+ x y 1))
(doc 'blub)"%string,
   "String -------------------------------------------------

blub 

Syntax: (blub x y)

>not available<



"%string);
  (* Test_While1 *)
  ("(do (def a 1) (def b 1) (while (< a 10) (do (setf a (+ a 1)) (setf b (+ b 1)))))"%string,
   "Int 10"%string);
  (* Test_Defn1 *)
  ("(do (def g_prn ""START:"") (defn prn (x) (setf g_prn (add g_prn x))) (prn ""34"") (println g_prn))"%string,
   "String START:34"%string);
  (* Test_AddString *)
  ("(+ ""abc"" ""def() ; blub"" ""xxx"")"%string,
   "String abcdef() ; blubxxx"%string);
  (* Test_AddLists *)
  ("(+ '(1 2 3) '(""hello world"" 2.3 42))"%string,
   "List (1 2 3 ""hello world"" 2.300000 42)"%string);
  (* Test_ListFirst *)
  ("(first '(1 2 3))"%string,
   "Int 1"%string);
  (* Test_ListFirstSymbol *)
  ("(first '(a b c))"%string,
   "Symbol a"%string);
  (* Test_ListLast *)
  ("(last '(1 2 3))"%string,
   "Int 3"%string);
  (* Test_ListLastSymbol *)
  ("(last '(abc def xyz))"%string,
   "Symbol xyz"%string);
  (* Test_ListCar *)
  ("(car '(""abc"" 2 3))"%string,
   "String abc"%string);
  (* Test_ListRest *)
  ("(rest '(1 2 3))"%string,
   "List (2 3)"%string);
  (* Test_ListCdr *)
  ("(cdr '(""nix"" 1 2 3))"%string,
   "List (1 2 3)"%string);
  (* Test_ListLength *)
  ("(len '(1 2 3))"%string,
   "Int 3"%string);
  (* Test_ListAppend *)
  ("(append (list 4 54 3) (list 7 9))"%string,
   "List (4 54 3 7 9)"%string);
  (* Test_ListPush1 *)
  ("(do (def l '(a b c)) (push z l))"%string,
   "List (z a b c)"%string);
  (* Test_ListPush2 *)
  ("(do (def l '(a b c)) (push z l 2))"%string,
   "List (a b z c)"%string);
  (* Test_ListPush3 *)
  ("(do (def l '(a b c)) (push z l 2) (print l))"%string,
   "String (a b z c)"%string);
  (* Test_ListPushError *)
  ("(do (def l 42) (push z l 2))"%string,
   "EBase push not supported for type Int"%string);
  (* Test_ListPop1 *)
  ("(do (def l '(a b c)) (def a (pop l)) (print a l))"%string,
   "String a (b c)"%string);
  (* Test_ListPop2 *)
  ("(do (def l '()) (def a (pop l)) (print a l))"%string,
   "String NIL ()"%string);
  (* Test_ListPop4 *)
  ("(do (def l '(a b c)) (def a (pop l 5)) (print a l))"%string,
   "String NIL (a b c)"%string);
  (* Test_ListPop5 *)
  ("(do (def l '(a b c)) (def a (pop l 1)) (print a l))"%string,
   "String b (a c)"%string);
  (* Test_ListPopError *)
  ("(do (def l 5) (def a (pop l)) (print a l))"%string,
   "EBase pop not supported for type Int"%string);
  (* Test_LogicalOperators *)
  ("(list (and #t #f) (and #t #t) (or #t #f) (or #f #f) (or #t #f #t))"%string,
   "List (#f #t #t #f #t)"%string);
  (* Test_LogicalOperators2 *)
  ("(list (&& #t #f) (&& #t #t) (|| #t #f) (|| #f #f) (|| #t #f #t))"%string,
   "List (#f #t #t #f #t)"%string);
  (* Test_CompareOperators1 *)
  ("(list (= 1 2) (= 4 4) (== ""blub"" ""blub"") (== #t #f) (equal 3 4))"%string,
   "List (#f #t #t #f #f)"%string);
  (* Test_CompareOperators1 *)
  ("(do (def a ()) (== a ()))"%string,
   "Bool #t"%string);
  (* Test_CompareOperators1 *)
  ("(do (def a 42) (== a ()))"%string,
   "Bool #f"%string);
  (* Test_CompareOperators1 *)
  ("(do (def a blub) (def b nix) (== a b))"%string,
   "Bool #f"%string);
  (* Test_CompareOperators1 *)
  ("(do (def a blub) (def b blub) (== a b))"%string,
   "Bool #t"%string);
  (* Test_CompareOperators1 *)
  ("(do (def a (list 1 2 3)) (def b (list 2 3 4)) (== a b))"%string,
   "Bool #f"%string);
  (* Test_CompareOperators1 *)
  ("(do (def a (list 1 2 3)) (def b (list 1 2 3)) (== a b))"%string,
   "Bool #t"%string);
  (* Test_CompareOperators1 *)
  ("(do (def a (list 1 2 3)) (def b (list 1 (sym 2) 3)) (== a b))"%string,
   "Bool #f"%string);
  (* Test_CompareOperators1 *)
  ("(do (def a blub) (def b nix) (!= a b))"%string,
   "Bool #t"%string);
  (* Test_CompareOperators1 *)
  ("(do (def a 7) (def b 7) (!= a b))"%string,
   "Bool #f"%string);
  (* Test_CompareOperators2 *)
  ("(list (< 1 2) (< 4 1) (> 5 2) (> 1 3) (> 4.0 4.0))"%string,
   "List (#t #f #t #f #f)"%string);
  (* Test_CompareOperators2 *)
  ("(do (def a ""abc"") (def b ""def"") (< a b))"%string,
   "Bool #t"%string);
  (* Test_CompareOperators2 *)
  ("(do (def a ""abc"") (def b ""abc"") (< a b))"%string,
   "Bool #f"%string);
  (* Test_CompareOperators2 *)
  ("(do (def a ""abc"") (def b ""def"") (<= a b))"%string,
   "Bool #t"%string);
  (* Test_CompareOperators2 *)
  ("(do (def a ""abc"") (def b ""abc"") (<= a b))"%string,
   "Bool #t"%string);
  (* Test_CompareOperators3 *)
  ("(list (<= 1 2) (<= 4 1) (>= 5 2) (>= 1 3) (>= 4.0 4.0) (<= 42 42))"%string,
   "List (#t #f #t #f #t #t)"%string);
  (* Test_Not *)
  ("(list (! #t) (not #t) (not #f) (! #f))"%string,
   "List (#f #f #t #t)"%string);
  (* Test_Arithmetric1 *)
  ("(+ 1 2 3 4)"%string,
   "Int 10"%string);
  (* Test_Arithmetric2 *)
  ("(+ 1.1 2.2 3.3 4.3)"%string,
   "Double 10.900000"%string);
  (* Test_Arithmetric3 *)
  ("(* 3 8 2)"%string,
   "Int 48"%string);
  (* Test_Arithmetric4 *)
  ("(/ 1.0 2.0)"%string,
   "Double 0.500000"%string);
  (* Test_Arithmetric5 *)
  ("(/ 10 2)"%string,
   "Int 5"%string);
  (* Test_Arithmetric6 *)
  ("(- 42 12 6)"%string,
   "Int 24"%string);
  (* Test_Arithmetric7 *)
  ("(- 42.5 0.5)"%string,
   "Double 42.000000"%string);
  (* Test_Arithmetric8 *)
  ("(sub 42.5 1.5 2.0)"%string,
   "Double 39.000000"%string);
  (* Test_Arithmetric9 *)
  ("(div 12 3)"%string,
   "Int 4"%string);
  (* Test_Arithmetric10 *)
  ("(mul 2 3 4)"%string,
   "Int 24"%string);
  (* Test_Arithmetric11 *)
  ("(add 2 3 4)"%string,
   "Int 9"%string);
  (* Test_MacrosExpand1 *)
  ("(do (define-macro-expand blub (x y) '(println x y)) (println (quote (1 2 3))) (blub 3 4))"%string,
   "String 3 4"%string);
  (* Test_MacrosSetf1 *)
  ("(do (def a 42) (define-macro-expand my-setf (x value) '(setf x value)) (my-setf a (+ ""blub"" ""xyz"")) (println a))"%string,
   "String blubxyz"%string);
  (* Test_MacrosSetf2 *)
  ("(do (def a 42) (defn my-setf (x value) (setf x value)) (my-setf a (+ 8 9)) (println a))"%string,
   "String 42"%string);
  (* Test_MacrosSetf3 *)
  ("(do (def a 42) (define-macro-eval my-setf (x value) (setf x value)) (my-setf a (+ ""blub"" ""xyz"")) (println a))"%string,
   "String blubxyz"%string);
  (* Test_Quasiquote1 *)
  ("(do (def a '(42 99 102 ""hello"")) (def b 55) (println (type a)) (println (nth 3 `(1 2 3 ,@a))))"%string,
   "String 42"%string);
  (* Test_Quasiquote2 *)
  ("(do (def a 42) (println `(1 2 3 ,a)))"%string,
   "String (1 2 3 42)"%string);
  (* Test_Quasiquote3 *)
  ("(do (def a 42) (def lst (list 6 8 12)) (println (quasiquote (1 2 3 ,a ,@lst))))"%string,
   "String (1 2 3 42 6 8 12)"%string);
  (* Test_Quasiquote4 *)
  ("(do (def a 42) (def lst (list 6 8 12)) (println (quasiquote (1 2 3 ,a ,lst))))"%string,
   "String (1 2 3 42 (6 8 12))"%string);
  (* Test_Quasiquote5 *)
  ("(do (def a 42) (println (quasiquote (1 2 3 ,(+ 3 a)))))"%string,
   "String (1 2 3 45)"%string);
  (* Test_Quasiquote6 *)
  ("(do (def a 42) (println (quasiquote (1 2 3 ,@(list 9 8 7 a)))))"%string,
   "String (1 2 3 9 8 7 42)"%string);
  (* Test_Quasiquote7 *)
  ("(do (def args '(1 2 3)) `,(first args))"%string,
   "Int 1"%string);
  (* Test_Quasiquote8 *)
  ("(do (def args '(1 2 3)) `(,(first args)))"%string,
   "List (1)"%string);
  (* Test_Quasiquote9 *)
  ("(do `(b))"%string,
   "List (b)"%string);
  (* Test_Quasiquote10 *)
  ("(do `a)"%string,
   "Symbol a"%string);
  (* Test_Quote1 *)
  ("(do (def x 42) (println 'x))"%string,
   "String x"%string);
  (* Test_Quote2 *)
  ("(do 'x)"%string,
   "Symbol x"%string);
  (* Test_Quote3 *)
  ("(do '(a b 6 x))"%string,
   "List (a b 6 x)"%string);
  (* Test_EvalQuasiQuote1 *)
  ("(do (def a 4) (def lst '(a 2 3)) (eval `,(first lst)))"%string,
   "Int 4"%string);
  (* Test_String2 *)
  ("(string ""hello"" ""-"" ""world"")"%string,
   "String hello-world"%string);
  (* Test_Map *)
  ("(map (lambda (x) (+ x 1)) '(1 2 3))"%string,
   "List (2 3 4)"%string);
  (* Test_Reduce1 *)
  ("(reduce (lambda (x y) (+ x y)) '(1 2 3) 0)"%string,
   "Int 6"%string);
  (* Test_Reduce2 *)
  ("(reduce (lambda (x y) (* x y)) '(2 3 4 5) 2)"%string,
   "Int 240"%string);
  (* Test_Closure1 *)
  ("(do (defn addx (delta) (lambda (x) (+ x delta))) (def addclosure (addx 41)) (println (addclosure 1)))"%string,
   "String 42"%string);
  (* Test_Closure2 *)
  ("(do (defn g (x) (do (+ x 2))) (defn f (x) (do (def i 7) (+ x 1 i (g 2)))) (println (f 1)))"%string,
   "String 13"%string);
  (* Test_Closure3 *)
  ("(do (defn g (x) (do (+ x 2 i))) (defn f (x) (do (def i 7) (+ x 1 i (g 2)))) (println (f 1)))"%string,
   "EBase Invalid cast for int, value=i can not convert Symbol to int"%string);
  (* Test_RecursiveCall1 *)
  ("(do (defn addConst (x a) (+ x a)) (def add2 (lambda (x) (addConst x 2))) (println (addConst 8 2)) (println (add2 4)))"%string,
   "String 6"%string);
  (* Test_Return1 *)
  ("(do (defn f (x) (return (+ x x))) (println (f 7)))"%string,
   "String 14"%string);
  (* Test_Return2 *)
  ("(do (defn f (x) (do (return (+ x x)) (return 9))) (println (f 7)))"%string,
   "String 14"%string);
  (* Test_Apply1 *)
  ("(apply (lambda (x) (println ""hello"" x)) '(55))"%string,
   "String hello 55"%string);
  (* Test_Apply2 *)
  ("(do (def f (lambda (x) (+ x x))) (apply f '(5)))"%string,
   "Int 10"%string);
  (* Test_Apply3 *)
  ("(do (def f '+) (apply f '(5 6 7)))"%string,
   "Int 18"%string);
  (* Test_Argscount1 *)
  ("(do (defn f (x) (do (println ""count="" (argscount)) (+ x x))) (f 5 6 7))"%string,
   "Int 10"%string);
  (* Test_Arg2 *)
  ("(do (defn f (x) (do (println ""count="" (argscount)) (println (arg 0)) (println (arg 1)) (println (arg 2)) (println ""additional="" (nth 1 _additionalArgs)) (+ x x))) (f 5 6 7))"%string,
   "Int 10"%string);
  (* Test_Arg3 *)
  ("(do (defn f (x) (do (arg 7) (+ x x))) (f 5 6 7))"%string,
   "EBase Index out of range in args function (index=7 max=3)"%string);
  (* Test_Arg4 *)
  ("(do (defn f () (do (def z (arg 2)) (+ z z))) (f 5 6 7))"%string,
   "Int 14"%string);
  (* Test_Args1 *)
  ("(do (defn f () (do (def z (args)))) (f 5 6 7))"%string,
   "List (5 6 7)"%string);
  (* Test_Cons1 *)
  ("(cons 1 2)"%string,
   "List (1 2)"%string);
  (* Test_Cons2 *)
  ("(cons 1 '(2 3 4))"%string,
   "List (1 2 3 4)"%string);
  (* Test_Cons3 *)
  ("(cons 12)"%string,
   "List (12)"%string);
  (* Test_Cons4 *)
  ("(cons)"%string,
   "List ()"%string);
  (* Test_Nop *)
  ("(nop)"%string,
   "Undefined <undefined>"%string);
  (* Test_Symbol *)
  ("(sym a)"%string,
   "Symbol a"%string);
  (* Test_Str *)
  ("(str abc)"%string,
   "String abc"%string);
  (* Test_MapError1 *)
  ("(map 4 '(1 2 3))"%string,
   "ELisp No function in map @1,1,4"%string);
  (* Test_MapError2 *)
  ("(map (lambda (x) (+ x 1)) 4)"%string,
   "ELisp No list in map @1,24,24"%string);
  (* Test_ReduceError1 *)
  ("(reduce ""blub"" '(1 2 3) 0)"%string,
   "ELisp No function in reduce @1,1,7"%string);
  (* Test_ReduceError2 *)
  ("(reduce (lambda (x y) (+ x y))  ""test"" 0)"%string,
   "ELisp No list in reduce @1,29,29"%string);
  (* Test_SetfError *)
  ("(setf a 2.0)"%string,
   "ELisp Symbol a not found @1,1,5"%string);
  (* Test_Parser1 *)
  ("(println ""hello""))"%string,
   "ELisp Brackets out of balance or unexpected script code @1,17,17"%string);
  (* Test_Parser2 *)
  ("((println ""hello"")"%string,
   "ELisp Brackets out of balance @2,18,19"%string);
  (* Test_Parser3 *)
  ("(blub 1 2 3)"%string,
   "ELisp Function ""blub"" not found @1,1,5"%string);
  (* Test_NotError *)
  ("(not a 2.0)"%string,
   "ELisp Bad argument count in not, has 2 expected 1 @1,1,4"%string);
  (* Test_CompareError1 *)
  ("(> 2.0)"%string,
   "ELisp Bad argument count in >, has 1 expected 2 @1,1,2"%string);
  (* Test_CompareError2 *)
  ("(> 2.0 5 234)"%string,
   "ELisp Bad argument count in >, has 3 expected 2 @1,1,2"%string);
  (* Test_ScriptToLong *)
  ("(setf a 2.0) asdf"%string,
   "ELisp Symbol a not found @1,1,5"%string);
  (* Test_DefError *)
  ("(def 1 2)"%string,
   "ELisp Symbol expected @1,1,4"%string);
  (* Test_DoError *)
  ("(do (def a 2) blub (setf a 5))"%string,
   "ELisp List expected in do @1,13,18"%string);
  (* Test_IfError *)
  ("(if #t 1 2 3)"%string,
   "ELisp Bad argument count in if, has 4 expected 18446744073709551615 @1,1,3"%string);
  (* Test_FunctionNotFound *)
  ("(unknown-fcn 1 2 3)"%string,
   "ELisp Function ""unknown-fcn"" not found @1,1,12"%string);
  (* Test_BracketsOutOfBalance1 *)
  ("(do (println 2)))"%string,
   "ELisp Brackets out of balance or unexpected script code @1,16,16"%string);
  (* Test_BracketsOutOfBalance2 *)
  ("(do ( (println 2))"%string,
   "ELisp Brackets out of balance @2,18,19"%string);
  (* Test_UnexpectedToken1 *)
  ("blub (do (println 2))"%string,
   "ELisp List expected in do @1,0,4"%string);
  (* Test_UnexpectedTokenButIsBracketsOutOfBalance *)
  ("(do (println 2)) asfd"%string,
   "ELisp List expected in do @1,16,21"%string);
  (* Test_Type1 *)
  ("(type 7)"%string,
   "Int 3"%string);
  (* Test_Type2 *)
  ("(type #f)"%string,
   "Int 2"%string);
  (* Test_Type3 *)
  ("(type '(2 3 1))"%string,
   "Int 6"%string);
  (* Test_Type4 *)
  ("(type aSymbol)"%string,
   "Int 8"%string);
  (* Test_Type5 *)
  ("(type ""a string"")"%string,
   "Int 5"%string);
  (* Test_TypeStr *)
  ("(typestr 1.23)"%string,
   "String Double"%string);
  (* Test_Vars *)
  ("(do (def a 4) (def b ""asdf"") (vars))"%string,
   "Undefined <undefined>"%string);
  (* Test_Copyright *)
  ("(copyright)"%string,
   "String Copyright: MIT-License http://opensource.org/licenses/MIT"%string);
  (* Test_Break *)
  ("(break)"%string,
   "Undefined <undefined>"%string);
  (* Test_ReadLineWithArgs *)
  ("(do (def a (readline 1)) (println a)"%string,
   "ELisp Brackets out of balance @2,36,37"%string);
  (* Test_ParseInteger *)
  ("(do (def s ""42"") (def i (parse-integer s)))"%string,
   "Int 42"%string);
  (* Test_ParseIntegerError *)
  ("(do (def s ""nonumber"") (def i (parse-integer s)))"%string,
   "Undefined <undefined>"%string);
  (* Test_ParseFloat *)
  ("(do (def s ""42.789"") (def f (parse-float s)))"%string,
   "Double 42.789000"%string);
  (* Test_ParseFloatError *)
  ("(do (def s ""nonumber"") (def f (parse-float s)))"%string,
   "Undefined <undefined>"%string);
  (* Test_Slice1 *)
  ("(do (def s ""this is a string"") (slice s 0 4))"%string,
   "String this"%string);
  (* Test_Slice2 *)
  ("(do (def s ""this is a string"") (slice s 8 -1))"%string,
   "String a string"%string);
  (* Test_Slice3 *)
  ("(do (def s ""this is a string"") (slice s 5 4))"%string,
   "String is a"%string);
  (* Test_SliceError *)
  ("(do (def s ""this is a string"") (slice s))"%string,
   "ELisp Bad argument count in slice, has 1 expected 3 @1,32,37"%string);
  (* Test_FirstForString *)
  ("(do (def s ""this is a string"") (first s))"%string,
   "String t"%string);
  (* Test_LastForString *)
  ("(do (def s ""this is a string"") (last s))"%string,
   "String g"%string);
  (* Test_RestForString *)
  ("(do (def s ""this is a string"") (rest s))"%string,
   "String his is a string"%string);
  (* Test_NthForString *)
  ("(do (def s ""this is a string"") (nth 5 s))"%string,
   "String i"%string);
  (* Test_LenForString *)
  ("(do (def s ""this is a string"") (len s))"%string,
   "Int 16"%string);
  (* Test_Trim *)
  ("(do (def s "" 	   this is a string  "") (trim s))"%string,
   "String this is a string"%string);
  (* Test_LowerCase *)
  ("(do (def s ""THIS is A stRing"") (lower-case s))"%string,
   "String this is a string"%string);
  (* Test_UpperCase *)
  ("(do (def s ""THIS is A stRing 8 ,.!?"") (upper-case s))"%string,
   "String THIS IS A STRING 8 ,.!?"%string);
  (* Test_Reverse *)
  ("(do (def l (list 1 2 b ""nix"" 4.5)) (print (reverse l)))"%string,
   "String (4.500000 ""nix"" b 2 1)"%string);
  (* Test_ReverseString *)
  ("(do (def s ""this is text"") (print (reverse s)))"%string,
   "String txet si siht"%string);
  (* Test_Search1 *)
  ("(do (def s ""this is text"") (print (search ""tex"" s)))"%string,
   "String 8"%string);
  (* Test_Search2 *)
  ("(do (def s ""this is text"") (search ""tes"" s))"%string,
   "Int -1"%string);
  (* Test_Search3 *)
  ("(do (def l '(a b 4 d 5.234 ""blub"")) (search b l))"%string,
   "Int 1"%string);
  (* Test_Search4 *)
  ("(do (def l '(a b 4 d 5.234 ""blub"")) (search 4 l))"%string,
   "Int 2"%string);
  (* Test_Search5 *)
  ("(do (def l '(a b 4 d 5.234 ""blub"")) (search ""blub"" l))"%string,
   "Int 5"%string);
  (* Test_Search6 *)
  ("(do (def l '(a b 4 d 5.234 ""blub"")) (search nix l))"%string,
   "Int -1"%string);
  (* Test_Search8 *)
  ("(do (def s ""this is text, with more text items for search."") (search ""text"" s))"%string,
   "Int 8"%string);
  (* Test_Search8 *)
  ("(do (def s ""this is text, with more text items for search."") (search ""text"" s 9))"%string,
   "Int 24"%string);
  (* Test_Replace1 *)
  ("(do (def s ""this is a long text"") (replace s ""long"" ""short""))"%string,
   "String this is a short text"%string);
  (* Test_Replace2 *)
  ("(do (def s ""this is a long long text"") (replace s ""long"" ""short""))"%string,
   "String this is a short short text"%string);
  (* Test_Replace3 *)
  ("(do (def s ""this is a long text"") (replace s ""verylong"" ""short""))"%string,
   "String this is a long text"%string);
  (* Test_Replace4 *)
  ("(do (def s ""this is a long text with a lot of words a"") (replace s ""a "" ""an ""))"%string,
   "String this is an long text with an lot of words a"%string);
  (* Test_UnaryMinusInt *)
  ("(do (def a 8) (- a))"%string,
   "Int -8"%string);
  (* Test_UnaryMinusDouble *)
  ("(do (def a 1.234) (- a))"%string,
   "Double -1.234000"%string);
  (* Test_UnaryMinusString *)
  ("(do (def a ""nix"") (- a))"%string,
   "EBase Unary operator - not available for String"%string);
  (* Test_ModuloInt *)
  ("(do (% 7 3))"%string,
   "Int 1"%string);
  (* Test_ModuloDouble *)
  ("(do (% 7.4 2.8))"%string,
   "Double 1.800000"%string);
  (* Test_LeftShift *)
  ("(do (<< 4 2))"%string,
   "Int 16"%string);
  (* Test_RightShift *)
  ("(do (>> 33 1))"%string,
   "Int 16"%string);
  (* Test_BinaryOr *)
  ("(do (| 18 7))"%string,
   "Int 23"%string);
  (* Test_BinaryAnd *)
  ("(do (& 18 7))"%string,
   "Int 2"%string);
  (* Test_BinaryXOr *)
  ("(do (^ 13 6))"%string,
   "Int 11"%string);
  (* Test_BinaryNot *)
  ("(do (~ 256))"%string,
   "Int -257"%string);
  (* Test_NotEnoughFunctionArguments *)
  ("(do (defn f (x y z) (add (str x) (str y) (str z))) (f 3))"%string,
   "String 3NILNIL"%string);
  (* Test_IntConversion1 *)
  ("(do (int 7.4))"%string,
   "Int 7"%string);
  (* Test_IntConversion2 *)
  ("(do (int ""61.234""))"%string,
   "Undefined <undefined>"%string);
  (* Test_IntConversion3 *)
  ("(do (int #t))"%string,
   "Int 1"%string);
  (* Test_IntConversion4 *)
  ("(do (int #f))"%string,
   "Int 0"%string);
  (* Test_IntConversion5 *)
  ("(do (int ""a text""))"%string,
   "Undefined <undefined>"%string);
  (* Test_FloatConversion1 *)
  ("(do (float 7))"%string,
   "Double 7.000000"%string);
  (* Test_FloatConversion2 *)
  ("(do (float ""61.234""))"%string,
   "Double 61.234000"%string);
  (* Test_FloatConversion3 *)
  ("(do (float #t))"%string,
   "Double 1.000000"%string);
  (* Test_FloatConversion4 *)
  ("(do (float #f))"%string,
   "Double 0.000000"%string);
  (* Test_FloatConversion5 *)
  ("(do (float ""a text""))"%string,
   "Undefined <undefined>"%string);
  (* Test_DelVar1 *)
  ("(do (def a 8) (delvar 'a))"%string,
   "Bool #t"%string);
  (* Test_DelVar2 *)
  ("(do (def a 8) (delvar 'b))"%string,
   "Bool #f"%string);
  (* Test_NeedLValue1 *)
  ("(do (def a 7) (defn test () (do (println (need-l-value)) (return 'a))) (setf (test) 8) (println a))"%string,
   "String 8"%string);
  (* Test_NeedLValue2 *)
  ("(do (def a 7) (defn test () (need-l-value)) (println (test)))"%string,
   "String #f"%string);
  (* Test_DictMake *)
  ("(do (def d (make-dict)))"%string,
   "NativeDictionary {  }"%string);
  (* Test_DictSet *)
  ("(do (def d (make-dict)) (dict-set d ""key1"" 42) (dict-set d 7 ""some text"") (println d))"%string,
   "String { [""key1"" : 42], [7 : ""some text""] }"%string);
  (* Test_DictGet *)
  ("(do (def d (make-dict)) (dict-set d ""key1"" 42) (dict-set d 7 ""some text"") (dict-get d 7))"%string,
   "String some text"%string);
  (* Test_DictLen *)
  ("(do (def d (make-dict)) (dict-set d ""key1"" 42) (dict-set d 7 ""some text"") (len d))"%string,
   "Int 2"%string);
  (* Test_DictClear *)
  ("(do (def d (make-dict)) (dict-set d ""key1"" 42) (dict-set d 7 ""some text"") (dict-clear d) (len d))"%string,
   "Int 0"%string);
  (* Test_DictKeys *)
  ("(do (def d (make-dict)) (dict-set d ""key1"" 42) (dict-set d 7 ""some text"") (dict-keys d))"%string,
   "List (""key1"" 7)"%string);
  (* Test_DictRemove *)
  ("(do (def d (make-dict)) (dict-set d ""key1"" 42) (dict-set d 7 ""some text"") (dict-remove d 7) (println d))"%string,
   "String { [""key1"" : 42] }"%string);
  (* Test_DictContainsKey1 *)
  ("(do (def d (make-dict)) (dict-set d ""key1"" 42) (dict-set d 7 ""some text"") (dict-contains-key d 8))"%string,
   "Bool #f"%string);
  (* Test_DictContainsKey2 *)
  ("(do (def d (make-dict)) (dict-set d ""key1"" 42) (dict-set d 7 ""some text"") (dict-contains-key d ""key1""))"%string,
   "Bool #t"%string);
  (* Test_DictContainsValue1 *)
  ("(do (def d (make-dict)) (dict-set d ""key1"" 42) (dict-set d 7 ""some text"") (dict-contains-value d 99))"%string,
   "Bool #f"%string);
  (* Test_DictContainsValue2 *)
  ("(do (def d (make-dict)) (dict-set d ""key1"" 42) (dict-set d 7 ""some text"") (dict-contains-value d 42))"%string,
   "Bool #t"%string);
  (* Test_Quasiquote11 *)
  ("(do (def l (list 1 2 3)) (println `,@l))"%string,
   "String 1 2 3"%string);
  (* Test_Quasiquote12 *)
  ("(do (def l 78) (println `,@l))"%string,
   "String 78"%string);
  (* Test_Quasiquote13 *)
  ("(do (def l 78) (println `,l))"%string,
   "String 78"%string);
  (* Test_Quasiquote14 *)
  ("(do (def l (list 1 2 3)) (println `,l))"%string,
   "String (1 2 3)"%string);
  (* Test_FormatStr0 *)
  ("(do (println (format ""Hello int={0} double={1} str={2}"")))"%string,
   "EBase Not enough items for format string: Hello int={0} double={1} str={2}"%string);
  (* Test_FormatStr1 *)
  ("(do (println (format ""Hello int={0} double={1} str={2}"" 42 2.3456 ""world"")))"%string,
   "String Hello int=42 double=2.345600 str=world"%string);
  (* Test_MathError1 *)
  ("(Math-Tan 1.2 3.4)"%string,
   "ELisp Bad argument count in Math-Tan, has 2 expected 1 @1,1,9"%string);
  (* Test_MathError2 *)
  ("(Math-Sin)"%string,
   "ELisp Bad argument count in Math-Sin, has 0 expected 1 @1,1,9"%string)].

Example conformance : forallb (fun t => String.eqb (run_test (fst t)) (snd t)) tests = true.
Proof. vm_compute. reflexivity. Qed.

(** Tests of the model, not proofs of properties: the tests of MainTest.cpp, run in the model of the command line program.  The
    files are those of CsLisp/Scripts and CsLisp/TestData; the library directory is written with slashes, lines end with a
    newline only.  Left
    out are the tests which list the documentation of all functions, write files or import the whole standard library (they were
    run in the model outside of this development and gave the expected texts). *)
Require Import String Ascii List ZArith Bool.
From Verif Require Import Base CppString Num Token Value State Eval LispTop Cli Conformance.
Import ListNotations.

Fixpoint starts_with (a b : string) : bool :=
  match a, b with
  | EmptyString, _ => true
  | String x a', String y b' => Ascii.eqb x y && starts_with a' b'
  | _, _ => false
  end.
Fixpoint has_text (b a : string) : bool := starts_with a b || match b with EmptyString => false | String _ b' => has_text b' a end.
Definition chars (s : string) : str := list_ascii_of_string s.
Definition test_files : list (str * str) := [
  (chars "scripts\simple.fuel"%string,
   chars "(do
    (print ""hello world !"")
)"%string);
  (chars "scripts\error.fuel"%string,
   chars "(do
    (printx ""hello world !"")
)"%string);
  (chars "TestData\simple.fuel"%string,
   chars "(do
    (print ""hello world !"")
)"%string);
  (chars "TestData\multiprintln.fuel"%string,
   chars "(println ""hello\nworld\ndone."")
"%string);
  (chars "TestData\test.fuel"%string,
   chars "(do
    (import testmodule)
    
    (println (blub 8))
)"%string);
  (chars "./Library/testmodule.fuel"%string,
   chars "(do

    (defn blub (x) 
	   (+ x 1)
	)

)"%string)].
(** The words of the command line, the lines of the input, the texts the output has to contain. *)
Definition main_test (args inp expected : list string) : bool :=
  let r := fuel_main (Host $"gcc" $"0.1" true) 100 (map chars args) (init_state (map chars inp) test_files (Env (fun _ => true) None $".")) in
  match fst r with Val _ => forallb (has_text (string_of_list_ascii (st_out (snd r)))) expected | _ => false end.
Definition main_tests : list (list string * list string * list string) := [
  (* Test_Main *)
  ([], [],
   ["fuel"%string]);
  (* Test_MainFile *)
  (["scripts\simple.fuel"%string], [],
   ["hello world !"%string]);
  (* Test_MainFileError *)
  (["scripts\error.fuel"%string], [],
   ["Error executing script"%string; "printx"%string; "not found"%string]);
  (* Test_MainFileErrorDetailed *)
  (["-x"%string; "scripts\error.fuel"%string], [],
   ["Error executing script"%string; "printx"%string; "not found"%string; "Callstack"%string; "Exception in"%string]);
  (* Test_MainHelp *)
  (["-h"%string], [],
   ["fuel"%string]);
  (* Test_MainVersion *)
  (["-v"%string], [],
   ["fuel v"%string; " from "%string]);
  (* Test_MainExecute *)
  (["-e"%string; "(print (+ 1 2))"%string], [],
   ["3"%string]);
  (* Test_MainExecuteAutoBlockDecorate *)
  (["-e"%string; "(println ""hello world"") (println ""done."")"%string], [],
   ["hello world"%string; "done"%string]);
  (* Test_MultiPrintLn *)
  (["TestData\multiprintln.fuel"%string], [],
   ["hello
world
done."%string]);
  (* Test_Profile *)
  (["-m"%string; "TestData\simple.fuel"%string], [],
   ["Execution time ="%string]);
  (* Test_Trace *)
  (["-t"%string; "TestData\simple.fuel"%string], [],
   ["--> do"%string; "--> print"%string]);
  (* Test_DebugSetBreakpoints *)
  (["-d"%string; "TestData\simple.fuel"%string], ["b ""module name"":4 (== a 4)"%string; "list"%string],
   ["#1   line=4     module=module name               condition=(== a 4)"%string]);
  (* Test_DebugModule *)
  (["-d"%string; "TestData\test.fuel"%string; "-l=."%string], ["b ./Library/testmodule.fuel:4"%string; "list"%string; "r"%string; "k"%string; "l"%string],
   ["FUEL(isp)-DBG> Breakpoints:"%string; "#1   line=4     module=./Library/testmodule.fuel condition="%string; "       1 name=<main>                              lineno=4    module=TestData\test.fuel"%string; "-->    2 name=blub                                lineno=4    module=./Library/testmodule.fuel"%string; "x --> 8                                        : Int"%string]);
  (* Test_MainTestParserBracketsOutOfBalance *)
  (["-e"%string; "(print ( (+ 1 2))"%string], [],
   ["Brackets out of balance --> line=2 start=17 stop=18 module="%string]);
  (* Test_MainTestParserUnexpectedToken *)
  (["-e"%string; "dummy (print (+ 1 2))"%string], [],
   ["List expected in do --> line=1 start=0 stop=5 module="%string]);
  (* Test_MainTestFunctionNotFound *)
  (["-e"%string; "(unknown-fcn (+ 1 2))"%string], [],
   ["Function ""unknown-fcn"" not found --> line=1 start=1 stop=12"%string]);
  (* Test_MainTestSymbolNotFound *)
  (["-e"%string; "(setf a 5)"%string], [],
   ["Symbol a not found --> line=1 start=1 stop=5"%string]);
  (* Test_MainTestListExpectedInDo *)
  (["-e"%string; "(do (print 3) 5)"%string], [],
   ["List expected in do --> line=1 start=13 stop=15"%string]);
  (* Test_MainTestBadArgumentCount *)
  (["-e"%string; "(do (print 3) (defn x))"%string], [],
   ["Bad argument count in def, has 1 expected 3 --> line=1 start=15 stop=19"%string]);
  (* Test_MainTestNoFunction *)
  (["-e"%string; "(do (print 3) (map 3 '(1 2 3)))"%string], [],
   ["No function in map --> line=1 start=15 stop=18"%string]);
  (* Test_MainTestNoList *)
  (["-e"%string; "(do (print 3) (map (lambda (x) (print x)) 3))"%string], [],
   ["No list in map --> line=1 start=40 stop=40"%string]);
  (* Test_MainTestSymbolExpected *)
  (["-e"%string; "(do (print 3) (def 4 ""test""))"%string], [],
   ["Symbol expected --> line=1 start=15 stop=18"%string])].
Example main_tests_ok : forallb (fun t => match t with (a, i, e) => main_test a i e end) main_tests = true.
Proof. vm_compute. reflexivity. Qed.

(** Tests of InterpreterTests.cpp whose scripts have several lines; [run_test] is that of Conformance.v. *)
Definition more_tests : list (string * string) := [
  (* Test_Closure4 *)
  ("(do (defn g (x) (do (+ x 2))) (defn f (x) (do (def i 7) (+ x 1 i (g 2)))) (println (f 1)))"%string,
   "String 13"%string);
  (* Test_Eval4 *)
  ("(do  
                                      (defn defstructfunc (name)  
                                        (do 
                                          (def structsym (sym (+ ""#"" name))) 
                                          (list 'defn (sym (+ ""make-"" name)) (cdr (args))  
                                              `(list ,structsym ,@(cdr(args))) 
                                          ) 
                                        ) 
                                      ) 
 
                                      (def f (defstructfunc point x y z)) 
                                      (eval f) 
                                      (def p (make-point 1 2 3)) 
                                    )"%string,
   "List (#point 1 2 3)"%string);
  (* Test_Eval5 *)
  ("(do 
                                      (defn defsimplefunc () 
                                        (do 
                                          (list 'defn 'simplefunc '(a b) 
                                              '(+ a b) 
                                          ) 
                                        ) 
                                      ) 
 
                                      (def f (defsimplefunc)) 
                                      (eval f) 
                                      (def p (simplefunc 1 2)) 
                                    )"%string,
   "Int 3"%string);
  (* Test_ListPop3 *)
  ("(do (def l '()) (def a (pop l)) (print a l))"%string,
   "String NIL ()"%string);
  (* Test_MacrosEvaluateDoubleMacroCall *)
  ("(do
			(define-macro-eval first-macro
				(a b)
				(do
					(println first-macro)
					(def i 1)
					(+ a b i)
				)
			)

			(define-macro-eval second-macro
				(x y)
				(do
					(println second-macro)
					(* x y)
				)
			)

			(def m (second-macro 4 (first-macro 6 3)))
		)"%string,
   "Int 40"%string);
  (* Test_MacrosEvaluateNested *)
  ("(do
			(define-macro-eval first-macro
				(a b)
				(do
					(println first-macro)
					(def i 1)
					(+ a b i)
				)
			)

			(define-macro-eval second-macro
				(x y)
			    (do
					(println second-macro)
					(* x y (first-macro (+ x 1) (+ y 2)))
				)
			)

			(def m (second-macro 4 3))
		)"%string,
   "Int 132"%string);
  (* Test_MacrosEvaluateRecursive *)
  ("(do
			(define-macro-eval first-macro
				(a b)
				(do
					(println first-macro)
					(def i 1)
					(+ a b i)
				)
			)

			(define-macro-eval second-macro
				(x y)
				(do
					(println second-macro)
					(* x y (first-macro x (+ y 4)))
				)
			)

			(def m (second-macro 4 3))
		)"%string,
   "Int 144"%string);
  (* Test_MacrosExpand2 *)
  ("(do
				(define-macro-expand first-macro
					(a b)
					'(do
						(def i 1)
						(+ a b i)
					 )
				)

				(define-macro-expand second-macro
					(x y)
					'(do
						(* x y (first-macro x y))
					 )
				)

				(def m (second-macro 4 3))
			)"%string,
   "Int 96"%string);
  (* Test_MacrosExpandDefineStruct *)
  ("(do 

	(define-macro-eval dotimes (counterinfo statements)
      (do
        (def (first 'counterinfo) 0)
        (while (eval (list < (first 'counterinfo) (eval (nth 1 'counterinfo))))
          (do
             (eval 'statements)
             (setf (rval (first 'counterinfo)) (eval (list + (first 'counterinfo) 1)))
          )
        )
      )
  )
 
    (define-macro-eval defstruct (name)
    (do 
 
      (eval
         (list 'defn (sym (+ ""make-"" name)) (cdr (quoted-macro-args)) 
                  `(list ,(sym (+ ""#"" name)) ,@(cdr(quoted-macro-args))) 
         )
      )
 
	  (eval
         (list 'defn (sym (+ ""is-"" name ""-p"")) '(data)	
            `(and(== (type data) 6) (== (first data) ,(sym (+ ""#"" name)))) 
         ) 
	  )
 
	  (dotimes (i (- (len (quoted-macro-args)) 1)) 
        (eval
              (list 'defn (sym (+ ""get-"" name ""-"" (str (nth (+ i 1) (quoted-macro-args))))) '(data) 
			     `(nth (+ ,i 1) data) 
            )
        )
      )
	)
  )
  
  (defstruct point x y)
  (def p (make-point 2 3))
)"%string,
   "List (#point 2 3)"%string);
  (* Test_MacrosExpandDoubleMacroCall *)
  ("(do
				(define-macro-expand first-macro
					(a b)
					'(do
						(println first-macro)
						(def i 1)
						(+ a b i)
					 )
				)

				(define-macro-expand second-macro
					(x y)
					'(do
						(println second-macro)
						(* x y)
					 )
				)

				(def m (second-macro 4 (first-macro 6 3)))
			)"%string,
   "Int 40"%string);
  (* Test_MacrosExpandNested *)
  ("(do
				(define-macro-expand first-macro
					(a b)
					'(do
						(println first-macro)
						(def i 1)
						(+ a b i)
					 )
				)

				(define-macro-expand second-macro
					(x y)
					'(do
						(println second-macro)
							(* x y (first-macro (+ x 1) (+ y 2)))
						)
					 )

				(def m (second-macro 4 3))
			)"%string,
   "Int 132"%string);
  (* Test_MacrosExpandRecursive *)
  ("(do				(define-macro-expand first-macro					(a b)					'(do						(println first-macro)						(def i 1)						(+ a b i)					 )				)				(define-macro-expand second-macro					(x y)					'(do						(println second-macro)						(* x y (first-macro x (+ y 4)))					 )				)				(def m (second-macro 4 3))			)"%string,
   "Int 144"%string);
  (* Test_NestedMacroExpand *)
  ("(do				(define-macro-expand setqq (symbol value)					'(setf symbol value)				)				(define-macro-expand begin (sequence)				   (list 'do `,@(quoted-macro-args))				)					(begin					  (def x 42)					  (setqq x 4)				      (println x)					))"%string,
   "String 4"%string)].
Example more_tests_ok : forallb (fun t => String.eqb (run_test (fst t)) (snd t)) more_tests = true.
Proof. vm_compute. reflexivity. Qed.

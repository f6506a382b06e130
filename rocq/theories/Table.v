(** The table of functions registered by CreateDefaultScope, Environment.cpp 2307-2493,
    in the order of the code: name, function, signature, documentation, isBuiltin,
    isSpecialForm, isEvalInExpand (CreateFunction, 232-243).  Transcribed by a script. *)
Require Import String Ascii List.
From Verif Require Import Base Value.
Import ListNotations.

Definition entry : Type := str * builtin * str * str * bool * bool * bool.
Definition fentry (name : str) (b : builtin) (sig doc : str) : entry := (name, b, sig, doc, true, false, false).
Definition sentry (name : str) (b : builtin) (sig doc : str) : entry := (name, b, sig, doc, true, true, false).

Definition builtin_table : list entry := [
  fentry $"fuel" BFuel $"(fuel)" $"Returns and shows information about the fuel language.";
  fentry $"version" BVersion $"(version)" $"Returns the version of the fuel language.";
  fentry $"copyright" BCopyright $"(copyright)" $"Returns and shows the copyright of the fuel language.";
  fentry $"help" BHelp $"(help)" $"Returns and shows the available builtin functions.";
  fentry $"doc" BDoc $"(doc functionname ...)" $"Returns and shows the documentation of all builtin functions or for the given function name(s).";
  fentry $"searchdoc" BSearchDoc $"(searchdoc name ...)" $"Returns and shows the documentation of functions containing name(s).";
  fentry $"htmldoc" BHtmlDoc $"(htmldoc)" $"Returns and shows the documentation of all builtin functions in html format.";
  fentry $"break" BBreak $"(break)" $"Sets a breakpoint in the code.";
  fentry $"vars" BVars $"(vars)" $"Returns a dump of all variables.";
  fentry $"delvar" BDelVar $"(delvar name)" $"Deletes a local variable with the given name and returns a success flag.";
  fentry $"trace" BTracePrint $"(trace value)" $"Switches the trace modus on or off.";
  fentry $"gettrace" BGetTracePrint $"(gettrace)" $"Returns the trace output.";
  fentry $"need-l-value" BNeedLValue $"(need-l-value)" $"Returns #t if a l-value is needed as return value of the current function.";
  fentry $"import" BImport $"(import module1 ...)" $"Imports modules with fuel code.";
  fentry $"tickcount" BTickCount $"(tickcount)" $"Returns the current tick count in milliseconds, can be used to measure times.";
  fentry $"sleep" BSleep $"(sleep time-in-ms)" $"Sleeps the given number of milliseconds.";
  fentry $"date-time" BDateTime $"(date-time)" $"Returns a list with informations about the current date and time: (year month day hours minutes seconds).";
  fentry $"platform" BPlatform $"(platform)" $"Returns a list with informations about the current platform: (operating_system runtime_environment).";
  fentry $"type" BType $"(type expr)" $"Returns the type id of the value of the expression.";
  fentry $"typestr" BTypeStr $"(typestr expr)" $"Returns a readable string representing the type of the value of the expression.";
  fentry $"nop" BNop $"(nop)" $"Does nothing (no operation).";
  fentry $"return" BReturn $"(return expr)" $"Returns the value of the expression and quits the function.";
  fentry $"print" BPrint $"(print expr1 expr2 ...)" $"Prints the values of the given expressions on the console.";
  fentry $"println" BPrintLn $"(println expr1 expr2 ...)" $"Prints the values of the given expressions on the console adding a new line at the end of the output.";
  fentry $"format" BFormat $"(format format-str expr1 expr2 ...)" $"Formats the content of the format string with the values of the given expressions and returns a string.";
  fentry $"flush" BFlush $"(flush)" $"Flushes the output to the console.";
  fentry $"readline" BReadLine $"(readline)" $"Reads a line from the console input.";
  fentry $"parse-integer" BParseInteger $"(parse-integer expr)" $"Convert the string expr into an integer value";
  fentry $"parse-float" BParseFloat $"(parse-float expr)" $"Convert the string expr into a float value";
  fentry $"int" BToInt $"(int expr)" $"Convert the expr into an integer value";
  fentry $"float" BToFloat $"(float expr)" $"Convert the expr into a float value";
  fentry $"search" BSearch $"(search searchtxt expr [pos] [len])" $"Returns the first position of the searchtxt in the string, starting from position pos.";
  fentry $"slice" BSlice $"(slice expr1 pos len)" $"Returns a substring of the given string expr1, starting from position pos with length len.";
  fentry $"replace" BReplace $"(replace expr1 searchtxt replacetxt)" $"Returns a string of the given string expr1 with replacing searchtxt with replacetxt.";
  fentry $"trim" BTrim $"(trim expr1)" $"Returns a string with no starting and trailing whitespaces.";
  fentry $"lower-case" BLower $"(lower-case expr1)" $"Returns a string with only lower case characters.";
  fentry $"upper-case" BUpper $"(upper-case expr1)" $"Returns a string with only upper case characters.";
  fentry $"string" BAdd $"(string expr1 expr2 ...)" $"see: add";
  fentry $"add" BAdd $"(add expr1 expr2 ...)" $"Returns value of expr1 added with expr2 added with ...";
  fentry $"+" BAdd $"(+ expr1 expr2 ...)" $"see: add";
  fentry $"sub" BSub $"(sub expr1 expr2 ...)" $"Returns value of expr1 subtracted with expr2 subtracted with ...";
  fentry $"-" BSub $"(- expr1 expr2 ...)" $"see: sub";
  fentry $"mul" BMul $"(mul expr1 expr2 ...)" $"Returns value of expr1 multipied by expr2 multiplied by ...";
  fentry $"*" BMul $"(* expr1 expr2 ...)" $"see: mul";
  fentry $"div" BDiv $"(div expr1 expr2 ...)" $"Returns value of expr1 divided by expr2 divided by ...";
  fentry $"/" BDiv $"(/ expr1 expr2 ...)" $"see: div";
  fentry $"mod" BMod $"(mod expr1 expr2)" $"Returns value of modulo operation between expr1 and expr2";
  fentry $"%" BMod $"(% expr1 expr2)" $"see: mod";
  fentry $">>" BShr $"(>> expr1 expr2)" $"Integer right shift. Returns integer expression1 right shifted for expression2 binary digits.";
  fentry $"<<" BShl $"(>> expr1 expr2)" $"Integer left shift. Returns integer expression1 left shifted for expression2 binary digits.";
  fentry $"|" BBitOr $"(| expr1 expr2)" $"Binary or for integer numbers (bitwise or).";
  fentry $"&" BBitAnd $"(& expr1 expr2)" $"Binary and for integer numbers (bitwise and).";
  fentry $"^" BBitXor $"(^ expr1 expr2)" $"Binary xor for integer numbers (bitwise xor).";
  fentry $"~" BBitNot $"(~ expr1)" $"Binary not for integer numbers (bitwise not).";
  fentry $"<" BLt $"(< expr1 expr2)" $"Returns #t if value of expression1 is smaller than value of expression2 and returns #f otherwiese.";
  fentry $">" BGt $"(> expr1 expr2)" $"Returns #t if value of expression1 is larger than value of expression2 and returns #f otherwiese.";
  fentry $"<=" BLe $"(<= expr1 expr2)" $"Returns #t if value of expression1 is equal or smaller than value of expression2 and returns #f otherwiese.";
  fentry $">=" BGe $"(>= expr1 expr2)" $"Returns #t if value of expression1 is equal or larger than value of expression2 and returns #f otherwiese.";
  fentry $"equal" BEq $"(equal expr1 expr2)" $"Returns #t if value of expression1 is equal with value of expression2 and returns #f otherwiese.";
  fentry $"=" BEq $"(= expr1 expr2)" $"see: equal";
  fentry $"==" BEq $"(== expr1 expr2)" $"see: equal";
  fentry $"!=" BNe $"(!= expr1 expr2)" $"Returns #t if value of expression1 is not equal with value of expression2 and returns #f otherwiese.";
  fentry $"not" BNot $"(not expr)" $"Returns the inverted bool value of the expression.";
  fentry $"!" BNot $"(! expr)" $"see: not";
  fentry $"list" BList $"(list item1 item2 ...)" $"Returns a new list with the given elements.";
  fentry $"map" BMap $"(map function list)" $"Returns a new list with elements, where all elements of the list where applied to the function.";
  fentry $"reduce" BReduce $"(reduce function list initial)" $"Reduce function.";
  fentry $"cons" BCons $"(cons item list)" $"Returns a new list containing the item and the elements of the list.";
  fentry $"len" BLength $"(len list)" $"Returns the length of the list.";
  fentry $"first" BFirst $"(first list)" $"see: car";
  fentry $"last" BLast $"(last list)" $"Returns the last element of the list.";
  fentry $"car" BFirst $"(car list)" $"Returns the first element of the list.";
  fentry $"rest" BRest $"(rest list)" $"see: cdr";
  fentry $"cdr" BRest $"(cdr list)" $"Returns a new list containing all elements except the first of the given list.";
  fentry $"nth" BNth $"(nth number list)" $"Returns the [number] element of the list.";
  fentry $"push" BPush $"(push elem list [index])" $"Inserts the element at the given index (default value 0) into the list (implace) and returns the updated list.";
  fentry $"pop" BPop $"(pop list [index])" $"Removes the element at the given index (default value 0) from the list and returns the removed element.";
  fentry $"append" BAppend $"(append list1 list2 ...)" $"Returns a new list containing all given lists elements.";
  fentry $"reverse" BReverse $"(reverse expr)" $"Returns a list or string with a reverted order.";
  sentry $"rval" BRValue $"(rval expr)" $"Returns a RValue of the expr, disables LValue evaluation.";
  fentry $"sym" BSym $"(sym expr)" $"Returns the evaluated expression as symbol.";
  fentry $"str" BToString $"(str expr)" $"Returns the evaluated expression as string.";
  fentry $"argscount" BArgsCount $"(argscount)" $"Returns the number of arguments for the current function.";
  fentry $"args" BArgs $"(args)" $"Returns all the values of the arguments for the current function.";
  fentry $"arg" BArg $"(arg number)" $"Returns the value of the [number] argument for the current function.";
  fentry $"apply" BApply $"(apply function arguments-list)" $"Calls the function with the arguments.";
  fentry $"eval" BEval $"(eval ast)" $"Evaluates the abstract syntax tree (ast).";
  fentry $"evalstr" BEvalStr $"(evalstr string)" $"Evaluates the string.";
  fentry $"make-dict" BMakeDict $"(make-dict)" $"Returns a new dictionary.";
  fentry $"dict-set" BDictSet $"(dict-set dict key value)" $"Sets the value for the key in the dictionary.";
  fentry $"dict-get" BDictGet $"(dict-get dict key)" $"Returns the value for the key or nil if key is not in dictionary.";
  fentry $"dict-remove" BDictRemove $"(dict-remove dict key)" $"Removes the value / key pair from the directory and returns success flag.";
  fentry $"dict-keys" BDictKeys $"(dict-keys dict)" $"Returns all keys in the dictionary.";
  fentry $"dict-clear" BDictClear $"(dict-clear dict)" $"Clears the dictionary.";
  fentry $"dict-contains-key" BDictContainsKey $"(dict-contains-key dict key)" $"Returns #t if key is contained in dictionary, otherwise #f.";
  fentry $"dict-contains-value" BDictContainsValue $"(dict-contains-value dict value)" $"Returns #t if value is contained in dictionary, otherwise #f.";
  sentry $"and" BAnd $"(and expr1 expr2 ...)" $"And operator with short cut.";
  sentry $"&&" BAnd $"(&& expr1 expr2 ...)" $"See: and";
  sentry $"or" BOr $"(or expr1 expr2 ...)" $"Or operator with short cut.";
  sentry $"||" BOr $"(|| expr1 expr2 ...)" $"See: or";
  sentry $"def" BDef $"(def symbol expression)" $"Creates a new variable with name of symbol in current scope. Evaluates expression and sets the value of the expression as the value of the symbol.";
  sentry $"gdef" BGDef $"(gdef symbol expression)" $"Creates a new variable with name of symbol in global scope. Evaluates expression and sets the value of the expression as the value of the symbol.";
  sentry $"setf" BSetf $"(setf symbol expression)" $"Evaluates expression and sets the value of the expression as the value of the symbol.";
  sentry $"define-macro" BDefMacroEval $"(define-macro name (arguments) statement)" $"see: define-macro-eval";
  sentry $"define-macro-eval" BDefMacroEval $"(define-macro-eval name (arguments) statement)" $"Special form: Defines a macro which will be evaluated at run time.";
  ($"define-macro-expand", BDefMacroExpand, $"(define-macro-expand name (arguments) statement)", $"Special form: Defines a macro which will be evaluated at compile time.", true, false, true);
  sentry $"quote" BQuote $"(quote expr)" $"Returns expression without evaluating it.";
  sentry $"quasiquote" BQuasiquote $"(quasiquote expr)" $"Returns expression without evaluating it, but processes evaluation operators , and ,@.";
  sentry $"_unquote" BUnquote $"(unquote expr)" $"Special form for unquoting expressions in quasiquote functions.";
  sentry $"_unquotesplicing" BUnquoteSplicing $"(unquotesplicing expr)" $"Special form for unquotingsplicing expressions in quasiquote functions.";
  sentry $"if" BIf $"(if cond then-block [else-block])" $"The if statement.";
  sentry $"while" BWhile $"(while cond block)" $"The while loop.";
  sentry $"do" BDo $"(do statement1 statement2 ...)" $"Returns a sequence of statements.";
  sentry $"begin" BDo $"(begin statement1 statement2 ...)" $"see: do";
  sentry $"lambda" BFn $"(lambda (arguments) block)" $"Returns a lambda function.";
  sentry $"fn" BFn $"(fn (arguments) block)" $"Returns a function.";
  sentry $"defn" BDefn $"(defn name (args) block)" $"Defines a function in the current scope.";
  sentry $"gdefn" BGDefn $"(gdefn name (args) block)" $"Defines a function in the global scope.";
  sentry $"do" BDo $"(do statement1 statement2 ...)" $"Returns a sequence of statements.";
  sentry $"if" BIf $"(if cond then-block [else-block])" $"The if statement.";
  fentry $"File-Exists" BFileExists $"(File-Exists name)" $"Returns #t if the file exists, otherwise returns #f.";
  fentry $"File-ReadAllText" BFileRead $"(File-ReadAllText name)" $"Returns the content of the file with name.";
  fentry $"File-WriteAllText" BFileWrite $"(File-WriteAllText name content)" $"Writes the content to the file with name.";
  fentry $"Math-Pi" BMathPi $"(Math-Pi)" $"Returns the pi value";
  fentry $"Math-Sin" BMathSin $"(Math-Sin expr)" $"Returns sin value of expr";
  fentry $"Math-Sinh" BMathSinh $"(Math-Sinh expr)" $"Returns sinh value of expr";
  fentry $"Math-Asin" BMathAsin $"(Math-Asin expr)" $"Returns asin value of expr";
  fentry $"Math-Cos" BMathCos $"(Math-Cos expr)" $"Returns cos value of expr";
  fentry $"Math-Cosh" BMathCosh $"(Math-Cosh expr)" $"Returns cosh value of expr";
  fentry $"Math-Acos" BMathAcos $"(Math-Acos expr)" $"Returns acos value of expr";
  fentry $"Math-Tan" BMathTan $"(Math-Tan expr)" $"Returns tan value of expr";
  fentry $"Math-Tanh" BMathTanh $"(Math-Tanh expr)" $"Returns tanh value of expr";
  fentry $"Math-Atan" BMathAtan $"(Math-Atan expr)" $"Returns atan value of expr";
  fentry $"Math-Exp" BMathExp $"(Math-Exp expr)" $"Returns exp value of expr";
  fentry $"Math-Log" BMathLog $"(Math-Log expr)" $"Returns log value of expr";
  fentry $"Math-Log10" BMathLog10 $"(Math-Log10 expr)" $"Returns log value of expr";
  fentry $"Math-Sqrt" BMathSqrt $"(Math-Sqrt expr)" $"Returns sqrt value of expr";
  fentry $"Math-Round" BMathRound $"(Math-Round expr)" $"Returns rounded value of expr";
  fentry $"Math-Truncate" BMathTrunc $"(Math-Truncate expr)" $"Returns truncated value of expr";
  fentry $"Math-Abs" BMathAbs $"(Math-Abs expr)" $"Returns absolute value of expr";
  fentry $"Math-Floor" BMathFloor $"(Math-Floor expr)" $"Returns floor value of expr";
  fentry $"Math-Ceiling" BMathCeil $"(Math-Ceiling expr)" $"Returns ceiling value of expr";
  fentry $"Math-Pow" BMathPow $"(Math-Pow expr1 expr2)" $"Returns power of expr1 with expr2 value of expr"
].

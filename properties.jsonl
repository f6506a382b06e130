{"id": "C01", "title": "A string literal denotes exactly the text that was escaped into it", "statement": "Writing any 7-bit text between double quotes, with backslash and double quote escaped by a backslash and newline, tab and carriage return written either raw or as \\n, \\t, \\r, yields exactly one string token whose value is that text, wherever the literal stands between other tokens. A backslash before a blank, bracket, semicolon, quote mark, backquote or comma is silently dropped; a literal with any other escape is rejected with a Lisp error naming the character.", "quantifier": "every 7-bit character sequence and every choice of escaping, at every position of a source text", "why_tests_cant": "there are unboundedly many texts; the tokenizer has a three-flag state machine whose flags leak between tokens, so samples do not settle it", "anchors": ["CppLisp/CppLispInterpreter/Tokenizer.cpp:LispTokenizer::Tokenize", "CppLisp/CppLispInterpreter/Tokenizer.cpp:ProcessCharAfterBackslash", "CppLisp/CppLispInterpreter/Token.cpp:LispToken::LispToken"]}
{"id": "C02", "title": "Source text written from a list of tokens is read back as that list", "statement": "Printing any sequence of tokens (symbols, integers, strings, brackets, quote marks, comments) with whitespace after each of them and tokenizing the result gives the same sequence of token texts and kinds. The amount and kind of whitespace between tokens is irrelevant.", "quantifier": "every finite token sequence and every choice of non-empty whitespace separators", "why_tests_cant": "a property of all sequences; interaction between neighbouring tokens is where the tokenizer loses text", "anchors": ["CppLisp/CppLispInterpreter/Tokenizer.cpp:LispTokenizer::Tokenize", "CppLisp/CppLispInterpreter/Token.cpp:LispToken::LispToken"]}
{"id": "C03", "title": "Comments do not change the meaning of a script", "statement": "Inserting a comment line (semicolon, text, newline) between two tokens changes neither the tokens before nor those after it, except for the added comment token. This holds when the comment text is not empty. A semicolon directly followed by the newline instead turns the whole remaining script into comment.", "quantifier": "every script text, insertion point and comment text", "why_tests_cant": "the failing case is an empty comment line, which looks like every other comment; universality over texts is needed to know it is the only one", "anchors": ["CppLisp/CppLispInterpreter/Tokenizer.cpp:ProcessComment", "CppLisp/CppLispInterpreter/Tokenizer.cpp:GetRestOfLine"]}
{"id": "C04", "title": "Tokens carry the line on which they end", "statement": "The line number recorded for each token, as shown in error messages and used for breakpoints, is one plus the number of newline characters of the script that precede the end of the token, for every script whose string literals contain no semicolon. A semicolon inside a string literal is counted as if it were a line end, so the numbers after it are off by one.", "quantifier": "every script without empty comments and every token in it", "why_tests_cant": "line bookkeeping is spread over four branches (whitespace, strings, comments); each sample exercises one path", "anchors": ["CppLisp/CppLispInterpreter/Tokenizer.cpp:LispTokenizer::Tokenize", "CppLisp/CppLispInterpreter/Token.h:LispToken::LineNo"]}
{"id": "C05", "title": "The tokenizer drops no source text", "statement": "For scripts made of brackets, whitespace and symbol characters the token texts concatenated in order equal the script with its whitespace removed. The claim fails as soon as a quote mark, comma, backquote or double quote directly follows a symbol: the symbol is then lost without an error.", "quantifier": "every script text over the given alphabet; one witness for the failure", "why_tests_cant": "absence of loss is universal over texts", "anchors": ["CppLisp/CppLispInterpreter/Tokenizer.cpp:LispTokenizer::Tokenize"]}
{"id": "C06", "title": "Integer literals denote their value or are rejected", "statement": "For every 32-bit signed integer its decimal text is an integer token with exactly that value; a decimal text outside the range is never silently truncated: whatever well-formed tokens come before it in a script, the C++ out_of_range exception leaves the interpreter even through the entry point that is meant to turn every error into an error value.", "quantifier": "every integer, in and out of the 32-bit range", "why_tests_cant": "2^32 in-range values and unboundedly many out-of-range ones", "anchors": ["CppLisp/CppLispInterpreter/Token.cpp:Int32_TryParse", "CppLisp/CppLispInterpreter/Token.cpp:LispToken::LispToken", "CppLisp/CppLispInterpreter/Lisp.cpp:Lisp::SaveEval"]}
{"id": "C07", "title": "Parsing inverts printing of code", "statement": "Every expression tree (nested lists of symbols, integers, strings, booleans) written as a fully bracketed text is parsed back to the same tree.", "quantifier": "every finite tree, any depth and width", "why_tests_cant": "infinitely many trees; needs induction on the tree", "anchors": ["CppLisp/CppLispInterpreter/Parser.cpp:LispParser::ParseTokens", "CppLisp/CppLispInterpreter/Tokenizer.cpp:LispTokenizer::Tokenize"]}
{"id": "C08", "title": "Unbalanced brackets are reported, balanced ones are accepted", "statement": "A bracketed script without quote marks is accepted exactly if its brackets balance and nothing but comments follows the first complete list; otherwise the error says that brackets are out of balance (or that there is unexpected script code) and carries the module name and the line, start and stop (as 32-bit numbers) of the last token, respectively of the bracket that closes the first list, and no part of the script runs.", "quantifier": "every token sequence without quote marks that begins with an opening bracket", "why_tests_cant": "characterises acceptance over all sequences", "anchors": ["CppLisp/CppLispInterpreter/Parser.cpp:LispParser::ParseTokens", "CppLisp/CppLispInterpreter/Parser.cpp:OnlyCommentTokensFrom", "CppLisp/CppLispInterpreter/Lisp.cpp:Lisp::Eval"]}
{"id": "C09", "title": "The quote mark abbreviates the quote form", "statement": "The text 'x is parsed as (quote x) for every expression x written without a leading quote mark, and likewise backquote, comma and comma-at. Two consecutive quote marks do not nest: the quoted datum of ''x is lost. A quote mark directly before a closing bracket makes the parser pop an empty stack (undefined behaviour).", "quantifier": "every expression x; witnesses for the two failures", "why_tests_cant": "universality over expressions; undefined behaviour cannot be tested for", "anchors": ["CppLisp/CppLispInterpreter/Parser.cpp:LispParser::ParseTokens"]}
{"id": "C10", "title": "Integer arithmetic is exact or undefined, never wrong", "statement": "Adding, subtracting or multiplying a list of integers from left to right yields the mathematical result whenever all partial results fit into 32 bits; otherwise the call is undefined behaviour (signed overflow). One operand: - negates, + and * return it. Integer division truncates towards zero and the remainder takes the sign of the dividend; division by zero and of the smallest integer by -1 is undefined behaviour. No call returns a wrapped value.", "quantifier": "every pair of 32-bit integers and every argument list length", "why_tests_cant": "2^64 operand pairs and unbounded argument lists", "anchors": ["CppLisp/CppLispInterpreter/Variant.cpp:operator+", "CppLisp/CppLispInterpreter/Environment.cpp:ArithmetricOperation", "CppLisp/CppLispInterpreter/Environment.cpp:Subtraction"]}
{"id": "C11", "title": "Arithmetic expressions compute their mathematical value", "statement": "Evaluating any nested expression built from integer literals, variables that hold integers and the operators +, -, * with any number of operands gives the mathematical value of the expression as long as all intermediate results fit into 32 bits, and leaves the output, the input, the files, all lists, dictionaries and variables unchanged; this holds in every scope in which the operators have their standard meaning. If an intermediate result does not fit, the behaviour is undefined.", "quantifier": "every expression tree, every scope and every interpreter state with the standard operators", "why_tests_cant": "unbounded expressions and states; needs induction over evaluation", "anchors": ["CppLisp/CppLispInterpreter/Interpreter.cpp:EvalAst", "CppLisp/CppLispInterpreter/Interpreter.cpp:ResolveArgsInScopes", "CppLisp/CppLispInterpreter/Environment.cpp:Addition"]}
{"id": "C12", "title": "Equality behaves like equality on scalars", "statement": "On integers, booleans, strings and symbols == holds exactly when the two values are equal and != is its negation, and two lists of integers are == exactly when they hold the same integers in order. Over mixed kinds and over doubles (compared with a tolerance) == is not transitive, and lists containing lists are compared by identity, so two equal nested lists are reported as different.", "quantifier": "every pair of values of the named kinds; witnesses for the failures", "why_tests_cant": "laws quantify over all triples of values", "anchors": ["CppLisp/CppLispInterpreter/Variant.cpp:EqualOp", "CppLisp/CppLispInterpreter/csobject.cpp:object::operator==", "CppLisp/CppLispInterpreter/cstypes.h:SequenceEqual"]}
{"id": "C13", "title": "Ordering operators agree with each other", "statement": "On integers < is a strict total order, a <= b is equivalent to (a < b or a == b), and > and >= are the mirror images; the same holds on strings for byte-wise lexicographic order.", "quantifier": "every pair or triple of integers and of strings without NUL", "why_tests_cant": "laws quantify over all pairs and triples", "anchors": ["CppLisp/CppLispInterpreter/Variant.cpp:operator<", "CppLisp/CppLispInterpreter/Variant.cpp:operator<=", "CppLisp/CppLispInterpreter/Environment.cpp:LessTest"]}
{"id": "C14", "title": "Converting an integer to text and back is the identity", "statement": "For every 32-bit integer, int of its str is the integer again, and parse-integer agrees; printing never produces the same text for two integers.", "quantifier": "every 32-bit integer", "why_tests_cant": "2^32 values", "anchors": ["CppLisp/CppLispInterpreter/csobject.cpp:object::ToString", "CppLisp/CppLispInterpreter/Environment.cpp:ParseInteger", "CppLisp/CppLispInterpreter/Environment.cpp:ToInt"]}
{"id": "C15", "title": "Text functions obey their laws", "statement": "For every 7-bit text trim returns the text without its longest whitespace prefix and suffix, and trimming again changes nothing; a byte above 127 at an end is undefined behaviour. For every needle that is not empty and texts without NUL characters replace substitutes exactly the leftmost non-overlapping occurrences, which determines the result; replacing a text by itself is the identity; after replacing by a non-empty text that shares no character with the needle the needle does not occur any more, while with an empty replacement it can reappear; an empty needle changes nothing. For every text shorter than 2^31 search returns the first position at which the needle occurs from the given start on, and -1 exactly if there is none. Slicing at any position splits a text without loss.", "quantifier": "every subject, needle and replacement text", "why_tests_cant": "quantifies over all texts; the replace loop mutates while scanning", "anchors": ["CppLisp/CppLispInterpreter/csstring.cpp:string::Trim", "CppLisp/CppLispInterpreter/csstring.h:do_replace", "CppLisp/CppLispInterpreter/Environment.cpp:Search", "CppLisp/CppLispInterpreter/Environment.cpp:Slice", "CppLisp/CppLispInterpreter/Environment.cpp:Replace"]}
{"id": "C16", "title": "Format inserts each argument at its own place", "statement": "For every template and up to five arguments, none of which contains an opening brace or is the text ##<NULL>##, format replaces the first {k} and the padded form {k,w} of each argument number by the k-th argument and changes nothing else. A placeholder without an argument is reported as an error. If an argument contains braces it is itself scanned for placeholders, so the text of one argument can be put into another, and an argument can make format throw a C++ exception that is not a Lisp error.", "quantifier": "every template and argument texts; witness for the failure", "why_tests_cant": "injection depends on the contents of arguments, all of which must be considered", "anchors": ["CppLisp/CppLispInterpreter/csstring.cpp:string::Format", "CppLisp/CppLispInterpreter/csstring.cpp:ReplaceIn", "CppLisp/CppLispInterpreter/csstring.cpp:ReplaceInWithFill", "CppLisp/CppLispInterpreter/Environment.cpp:Format"]}
{"id": "C17", "title": "Splitting into lines and joining gives the text back", "statement": "For every text that is not empty, reading it line by line returns the pieces between newlines in order, joining them with newlines gives the original text, splitting a joined list of lines gives the list back, and after the last line every further read returns the empty line.", "quantifier": "every input text and any number of reads", "why_tests_cant": "unbounded texts and read sequences", "anchors": ["CppLisp/CppLispInterpreter/csstring.cpp:string::Split", "CppLisp/CppLispInterpreter/cstypes.cpp:TextReader"]}
{"id": "C18", "title": "A dictionary is a finite map", "statement": "Over keys of one kind (all integers, or all strings without NUL) any sequence of dict-set, dict-get, dict-remove, dict-contains-key, dict-contains-value, dict-clear, len and dict-keys on a dictionary made by make-dict behaves like a finite map from keys to values, whatever happens to other data in between: get returns the content set last or an undefined value if there is none, contains-key tells whether the key was set and not removed, contains-value (for integers, booleans and strings) whether some key has that content, len counts the distinct keys, keys lists them in increasing order without duplicates as a new list, remove tells whether the key was present, set returns the value. Each operation changes no other dictionary, list, scope, output or file.", "quantifier": "every history of dictionary operations of any length", "why_tests_cant": "a property of all operation histories", "anchors": ["CppLisp/CppLispInterpreter/Environment.cpp:DictSet", "CppLisp/CppLispInterpreter/Environment.cpp:DictGet", "CppLisp/CppLispInterpreter/Environment.cpp:DictRemove", "CppLisp/CppLispInterpreter/cstypes.h:Dictionary", "CppLisp/CppLispInterpreter/Variant.cpp:operator<"]}
{"id": "C19", "title": "A dictionary with mixed keys is not a map", "statement": "Keys of different kinds are compared by numeric or textual value depending on the pair. So an integer key is found under its decimal text (and the key 0 under a text such as \"abc\") although that text was never set, and the order is no strict weak order: 9 < \"10\" and \"10\" < \"9\" but not 9 < \"9\"; setting \"10\", \"9\" and then 9 uses std::map outside its preconditions, undefined behaviour.", "quantifier": "every integer key for the confusion; witnesses for the order and the undefined behaviour", "why_tests_cant": "needs the container's search algorithm and the comparison together", "anchors": ["CppLisp/CppLispInterpreter/Variant.cpp:operator<", "CppLisp/CppLispInterpreter/cstypes.h:Dictionary"]}
{"id": "C20", "title": "Values survive a dictionary", "statement": "An integer, boolean, double, string, function or list stored with dict-set is returned by dict-get with the same type and value (the list is the same list object). A symbol comes back as a string, the literal nil as the integer 0, a dictionary with the type undefined; a nil without content (as returned by an ignored push) is stored, and reading it back dereferences a null pointer.", "quantifier": "every value of the listed kinds, every key and every earlier history of the dictionary", "why_tests_cant": "quantifies over all values", "anchors": ["CppLisp/CppLispInterpreter/Environment.cpp:DictSet", "CppLisp/CppLispInterpreter/Environment.cpp:DictGet", "CppLisp/CppLispInterpreter/Variant.cpp:LispVariant::LispVariant"]}
{"id": "C21", "title": "List constructors and selectors obey the list laws", "statement": "For every list l and value x: (list ...) has its arguments as elements; cons puts x in front of the elements of l (with one argument it makes a one-element list, with none an empty list, with a second argument that is no list a two-element list); len counts the elements; first, last and nth i (0 <= i < len) return the element at that place when a value is wanted; rest has the elements after the first; append concatenates any number of lists; reverse reverses, is an involution and turns append round. Each of these calls makes a new list or none, and changes neither its arguments nor any other list. first, last and rest of an empty list and nth with an index outside the list are undefined behaviour (an unchecked vector access); an argument that is no list is an error.", "quantifier": "every list of any length and every index", "why_tests_cant": "unbounded lists; out-of-range access is undefined behaviour", "anchors": ["CppLisp/CppLispInterpreter/Environment.cpp:First", "CppLisp/CppLispInterpreter/Environment.cpp:Rest", "CppLisp/CppLispInterpreter/Environment.cpp:Cons", "CppLisp/CppLispInterpreter/Environment.cpp:Append", "CppLisp/CppLispInterpreter/Environment.cpp:Reverse", "CppLisp/CppLispInterpreter/Environment.cpp:Nth"]}
{"id": "C22", "title": "map and reduce visit the elements in order", "statement": "map calls its function exactly once per element from left to right and returns the list of results; reduce folds from left to right starting with the initial value, calling the function with the element first and the accumulator second. If a call fails, the calls before it have happened, none after it does, and the failure is the outcome.", "quantifier": "every list, every function including ones with side effects", "why_tests_cant": "functions are arbitrary programs; order of effects over unbounded lists", "anchors": ["CppLisp/CppLispInterpreter/Environment.cpp:Map", "CppLisp/CppLispInterpreter/Environment.cpp:Reduce"]}
{"id": "C23", "title": "push and pop insert and remove at the given place", "statement": "push inserts the element at the given position (front by default) of the very list object passed, leaving the other elements in order, and returns a new list with the same elements; pop removes and returns the element at the position; pop after push at the same place restores the list. push and pop at or behind the end position, and so on an empty list, are silently ignored and return nil; push at a negative position is undefined behaviour.", "quantifier": "every list and position; witnesses for the ignored cases", "why_tests_cant": "boundary behaviour over all lists and positions", "anchors": ["CppLisp/CppLispInterpreter/Environment.cpp:Push", "CppLisp/CppLispInterpreter/Environment.cpp:Pop"]}
{"id": "C24", "title": "Only the named variable changes on assignment", "statement": "After the value expression has been evaluated, setf of a name makes exactly one variable of one scope refer to the new value; every other variable of every scope, the output, the input, the files and all lists and dictionaries are unchanged, and the value is the result. The scope is the current one, else the nearest enclosing function that has the name, else the global one. If the name is bound in none of these, a Lisp error naming it is raised and nothing changes (provided the call stack contains no text that breaks the error report).", "quantifier": "every interpreter state, scope nesting, name and value expression", "why_tests_cant": "frame property over all states", "anchors": ["CppLisp/CppLispInterpreter/Scope.cpp:SetInScopes", "CppLisp/CppLispInterpreter/Environment.cpp:setf_form"]}
{"id": "C25", "title": "Reading a variable after assigning it returns the assigned value", "statement": "If the variable changed by an assignment belongs to the current scope or to the global scope, or if the name is not bound globally, then reading the name afterwards gives the assigned value. If the name is bound both in an enclosing function and globally, the read returns the unchanged global value.", "quantifier": "every scope configuration; witness for the failing configuration", "why_tests_cant": "all configurations of nested scopes", "anchors": ["CppLisp/CppLispInterpreter/Scope.cpp:ResolveInScopes", "CppLisp/CppLispInterpreter/Scope.cpp:SetInScopes"]}
{"id": "C26", "title": "Variable lookup always terminates", "statement": "In every state an interpreter can reach by running any program from the initial state, the chain of enclosing scopes is finite and acyclic, so looking up or assigning any name terminates, and so does the computation of the call stack depth.", "quantifier": "every program and every point of its execution", "why_tests_cant": "reachability over all programs; an infinite loop cannot be observed by a test", "anchors": ["CppLisp/CppLispInterpreter/Scope.cpp:IsInClosureChain", "CppLisp/CppLispInterpreter/Scope.cpp:GetCallStackSize", "CppLisp/CppLispInterpreter/Environment.cpp:fn_form"]}
{"id": "C27", "title": "def binds locally", "statement": "def evaluates its value and then changes exactly one variable, of the current scope; gdef changes exactly one variable, of the global scope. No other variable of any scope, and nothing of the output, input, files, lists and dictionaries is changed by the binding itself.", "quantifier": "every state and scope nesting", "why_tests_cant": "frame property over all states", "anchors": ["CppLisp/CppLispInterpreter/Environment.cpp:def_form_helper", "CppLisp/CppLispInterpreter/Environment.cpp:def_form", "CppLisp/CppLispInterpreter/Environment.cpp:gdef_form"]}
{"id": "C28", "title": "Parameters are bound to the arguments in order", "statement": "Calling a function with n formal parameters evaluates its body in a new scope in which the i-th parameter is bound to the i-th argument, missing arguments are bound to nil, surplus arguments are available as a list, all arguments are available as another list, and no other name is bound; the new scope refers to the scope in which the function was written. Nothing else changes before the body runs, except the caller's link to the new scope. The value of the body is the value of the call; an error in the body leaves the call without its position.", "quantifier": "every parameter list, argument list and state", "why_tests_cant": "unbounded parameter lists; frame property", "anchors": ["CppLisp/CppLispInterpreter/Environment.cpp:fn_form", "CppLisp/CppLispInterpreter/Environment.cpp:Args"]}
{"id": "C29", "title": "if evaluates exactly one branch", "statement": "if evaluates its condition once and then exactly one branch, chosen by the truth value: the outcome of the whole form is the outcome of that branch, so the other branch has no effect at all, even if it would fail or not terminate. Without an else branch a false condition yields the null result. If the condition fails or is no boolean, no branch is evaluated.", "quantifier": "every condition, branch program and state", "why_tests_cant": "branches are arbitrary programs", "anchors": ["CppLisp/CppLispInterpreter/Environment.cpp:if_form"]}
{"id": "C30", "title": "and and or evaluate left to right and stop as documented", "statement": "and evaluates its operands from left to right, stops at the first false one and returns the conjunction; an operand that fails ends it with that failure. or decides by its first operand alone: if that is false the result is false and nothing else is evaluated, if it is true all other operands are evaluated and the result is true. So (or #f #t) is false and (or #t ...) does not stop early: the documented disjunction is violated.", "quantifier": "every operand list of any length and every operand program; witness for or", "why_tests_cant": "short-circuiting is about operands that are not evaluated; the repository's own tests miss the failing or case", "anchors": ["CppLisp/CppLispInterpreter/Environment.cpp:bool_operation_form", "CppLisp/CppLispInterpreter/Environment.cpp:and_form", "CppLisp/CppLispInterpreter/Environment.cpp:or_form"]}
{"id": "C31", "title": "while repeats its body exactly while the condition holds", "statement": "while evaluates the condition before each round and the body exactly as often as the condition was true, and stops after a round that executed return; booleans and numbers count as conditions. A counting loop (while (< x N) (setf x (+ x 1))) started at k <= N does exactly N - k rounds, ends with x = N and changes nothing else, for every scope in which x is found.", "quantifier": "every condition and body program; every start value, bound, variable and state", "why_tests_cant": "unbounded number of iterations", "anchors": ["CppLisp/CppLispInterpreter/Environment.cpp:while_form"]}
{"id": "C32", "title": "Evaluation is deterministic and independent of the step budget of the model", "statement": "Running the same program in the same state always has the same outcome (value, error, undefined behaviour, output, variables, files).", "quantifier": "every program and state", "why_tests_cant": "all programs; also validates that the model's step budget never decides an outcome", "anchors": ["CppLisp/CppLispInterpreter/Interpreter.cpp:EvalAst", "CppLisp/CppLispInterpreter/Lisp.cpp:Lisp::Eval"]}
{"id": "C33", "title": "Output already written is never changed", "statement": "Whatever a program does, including raising errors or being cut off in the middle, the text written before stays a prefix of the text written after, the input lines still to be read are a suffix of those before, and the program arguments and other parts of the environment stay the same.", "quantifier": "every program, state and outcome with a state", "why_tests_cant": "all programs and all error points", "anchors": ["CppLisp/CppLispInterpreter/cstypes.cpp:TextWriter", "CppLisp/CppLispInterpreter/Environment.cpp:Print", "CppLisp/CppLispInterpreter/Environment.cpp:PrintLn"]}
{"id": "C34", "title": "Evaluation leaves the scopes of the callers as they were", "statement": "Evaluating any expression or calling any function in a scope keeps, for every scope that existed before and whatever the outcome, its name, its global scope, the scope it closes over and its caller; scopes other than the current one keep everything but their variables. If no error occurred the current scope also keeps the flag that asks for a place, and if it had no callee it has none again. After an error it can keep a dangling link to the abandoned callee.", "quantifier": "every expression, function, scope and state in which scopes are numbered in order of creation, which every reachable state satisfies; witness for the error case", "why_tests_cant": "all programs and all error points", "anchors": ["CppLisp/CppLispInterpreter/Scope.h:PushNextScope", "CppLisp/CppLispInterpreter/Environment.cpp:fn_form"]}
{"id": "C35", "title": "Errors of the script become error values", "statement": "The safe entry point returns what evaluation returns. If evaluation raises an error without a position it returns an error value with the message; if it raises an error with a position, and message, module name and call stack contain no opening brace and are not ##<NULL>##, it returns an error value with the message and writes the report with message, line, start, stop, module and call stack to the output. All other outcomes (C++ out_of_range and invalid_argument exceptions, undefined behaviour) pass through. Contrary to its purpose a Lisp error escapes if the module name contains a placeholder such as {1}.", "quantifier": "every script; witnesses for the escapes", "why_tests_cant": "all scripts; undefined behaviour cannot be tested for", "anchors": ["CppLisp/CppLispInterpreter/Lisp.cpp:Lisp::SaveEval", "CppLisp/CppLispInterpreter/Exception.h:LispException"]}
{"id": "C36", "title": "An error leaves a usable interpreter", "statement": "An evaluation that returns normally leaves the flag of the current scope that requests an assignable place as it was. An error inside an assignment does not reset the flag: afterwards (first (list 1 2)) evaluates to a place instead of the number it evaluates to in a fresh interpreter.", "quantifier": "every failing program; witness", "why_tests_cant": "depends on a hidden flag and on the error point", "anchors": ["CppLisp/CppLispInterpreter/Environment.cpp:setf_form", "CppLisp/CppLispInterpreter/Environment.cpp:RValue", "CppLisp/CppLispInterpreter/Scope.h:NeedsLValue"]}
{"id": "C37", "title": "Macro expansion is the identity on code without macros", "statement": "Expanding a program tree in which no list starts with the name of a macro that is expanded before evaluation (or of a function that is run at expansion, such as define-macro-expand) gives structurally the same tree, in new lists, and changes nothing that existed, with one exception: nil as an element of a list becomes the empty list. Without nil elements expansion is the identity.", "quantifier": "every program tree of parsed atoms and every state", "why_tests_cant": "all trees; the expander rebuilds lists recursively", "anchors": ["CppLisp/CppLispInterpreter/Interpreter.cpp:ExpandMacros", "CppLisp/CppLispInterpreter/Lisp.cpp:Lisp::Eval"]}
{"id": "C38", "title": "Macro parameters are replaced by the argument expressions", "statement": "A macro call is evaluated (define-macro-eval) or expanded (define-macro-expand) exactly like the body in which, parameter after parameter, every atom with the parameter's text is replaced by the argument expression and all other parts are unchanged. The replacement is sequential, so an argument that mentions a later parameter is captured; a string literal whose text equals a parameter name is replaced as well; a call with too few arguments reads past the end of the call (undefined behaviour); an expansion-time macro must evaluate to a list: for a number, boolean or string the result is used as a list although it is none, for nil a null pointer is used (undefined behaviour).", "quantifier": "every macro, parameter list and argument list (arguments without macros of their own), every state; witnesses", "why_tests_cant": "all bodies and arguments", "anchors": ["CppLisp/CppLispInterpreter/Interpreter.cpp:ReplaceFormalArgumentsInExpression", "CppLisp/CppLispInterpreter/Interpreter.cpp:ReplaceSymbolWithValueInExpression"]}
{"id": "C39", "title": "quote returns its argument unevaluated", "statement": "(quote x) returns the tree x (an atom itself, a list as a new list with the same elements) without evaluating any part of it and without any effect besides noting the position, for every x; evaluating (eval (quote x)) has exactly the outcomes of evaluating x in the state reached by quoting.", "quantifier": "every expression tree and state (for eval: x not the atom nil)", "why_tests_cant": "all expressions, including ones that fail", "anchors": ["CppLisp/CppLispInterpreter/Environment.cpp:quote_form", "CppLisp/CppLispInterpreter/Environment.cpp:EvalFcn"]}
{"id": "C40", "title": "quasiquote copies everything except unquoted parts", "statement": "A quasiquoted expression evaluates to the template in which, from left to right, (_unquote e) is replaced by the value of e and (_unquotesplicing e) by the elements of the value of e; a template without unquote symbols evaluates to itself without effects. Exception: a list of exactly two elements is not searched, so an unquoted part inside it stays in the result.", "quantifier": "every template and state; witness for the exception", "why_tests_cant": "all nesting shapes", "anchors": ["CppLisp/CppLispInterpreter/Environment.cpp:quasiquote_form", "CppLisp/CppLispInterpreter/Environment.cpp:ProcessQuotedSExpression"]}
{"id": "C41", "title": "return leaves only the function it is written in", "statement": "return marks the scope of the function it is called from; a block whose scope is marked evaluates no further statement and returns the value of the statement that marked it. The caller's scope keeps its own mark when a function returns, so the caller continues normally. At global level the mark stays set and silently skips the rest of every later block, also in later scripts of the same interpreter.", "quantifier": "every function body and state; witness for the leak", "why_tests_cant": "all bodies and continuation programs", "anchors": ["CppLisp/CppLispInterpreter/Environment.cpp:Return", "CppLisp/CppLispInterpreter/Environment.cpp:do_form", "CppLisp/CppLispInterpreter/Environment.cpp:fn_form"]}
{"id": "C42", "title": "Printed values read back as the same value", "statement": "The printed text of every 32-bit integer, boolean or list of such values of any nesting, put behind a quote mark or into (quote ...), runs in an interpreter that has the usual do and quote and no global name looking like a number, #t, #f or a list, writes nothing, changes no variable and gives a value of the same structure that prints identically. The same holds with symbols and with strings inside lists as long as the strings contain no double quote and no backslash and no list begins with the name of a macro. nil inside a list does not survive (it reads back as the empty list), and strings with a double quote are printed in a form that cannot be read.", "quantifier": "every value of the class, any nesting", "why_tests_cant": "infinitely many nested values", "anchors": ["CppLisp/CppLispInterpreter/Variant.cpp:ToString", "CppLisp/CppLispInterpreter/csobject.cpp:object::ToString", "CppLisp/CppLispInterpreter/Parser.cpp:ParseTokens"]}
{"id": "C43", "title": "The breakpoint list behaves like a list of distinct places", "statement": "A break command typed at the debugger's prompt replaces the breakpoint of the same module and line in position if there is one and otherwise appends it; no two breakpoints ever have the same module and line; `clear n` removes exactly the n-th one, `clear` with any other number changes nothing and says so, and `clear` without a number removes all if and only if the question is answered with yes. If all breakpoints name a module, the entry for a module and line is the one that decides at that place, and without such an entry none does. A breakpoint without a module name covers its line in every module and hides later entries for that line: with a false condition in such an entry the program does not stop at a later unconditional breakpoint that is meant for the place (witness).", "quantifier": "every breakpoint list, every break and clear command, every evaluation, dialogue and session with the debugger; witness for the exception", "why_tests_cant": "all command histories", "anchors": ["CppLisp/CppLispDebugger/Debugger.cpp:AddBreakpoint", "CppLisp/CppLispDebugger/Debugger.cpp:ClearBreakpoint", "CppLisp/CppLispDebugger/Debugger.cpp:HitsBreakpoint"]}
{"id": "C44", "title": "The debugger stops where it was told to", "statement": "After `step` the program stops at the next call, after `over` at the next one that is not deeper in the call stack, after `out` at the next one in a shallower frame, after `run` only at breakpoints; it stops where an unconditional breakpoint is the first to cover the line and where the condition of that breakpoint evaluates to true, it goes on where the condition is false, and it reports a condition that fails and goes on. With the debugger attached every call of a function and of a special form is preceded by exactly one such decision, after the arguments were evaluated. `out` in the outermost frame never stops the program again by itself.", "quantifier": "every state of program and debugger, every call, every breakpoint list and stepping command", "why_tests_cant": "all execution traces", "anchors": ["CppLisp/CppLispDebugger/Debugger.cpp:NeedsBreak", "CppLisp/CppLispDebugger/Debugger.cpp:DoStepOver", "CppLisp/CppLispDebugger/Debugger.cpp:DoStepOut"]}
{"id": "C45", "title": "The command line program does what its arguments say, in any order of the options", "statement": "-v prints the version and -h (or no argument) the usage, which explains exactly the options this build has. Dashed words without a meaning, and repeated ones, are reported and nothing is run. A library path -l= followed by another word is reported. For arguments that are understood only the set of options matters and the order of the files: the program behaves the same for every arrangement with the same options, files and path. The files are evaluated one after the other, each in a fresh interpreter; -e, --doc and --html evaluate a text instead; -i reads expressions and prints their values until exit or the end of the input; -d debugs the text or the first file. The requested closing lines (expansion, result, time) follow. Exceptions, with witnesses: -l=path is only understood as last word; a repeated option counts as unknown; -e without a text indexes an empty list; -d with a closing line that shows the result dereferences null when the session ended without one.", "quantifier": "every argument list, all files, all input; witnesses for the exceptions", "why_tests_cant": "all argument lists and permutations", "anchors": ["CppLisp/CppLispInterpreter/fuel.cpp:MainExtended", "CppLisp/CppLispInterpreter/fuel.cpp:ContainsOptionAndRemove"]}
{"id": "C46", "title": "Errors inside functions lose their position", "statement": "A call of any function defined by a script with a parameter list never raises an error that carries line, position, module and call stack: whatever error its body raises leaves the call without them. The safe entry point therefore writes no report for an error inside a function, while it does for the same error outside.", "quantifier": "every script-defined function with a parameter list, all arguments, scopes and states; witness for the missing report", "why_tests_cant": "quantifies over all function bodies and all error points", "anchors": ["CppLisp/CppLispInterpreter/Environment.cpp:fn_form", "CppLisp/CppLispInterpreter/Exception.h:LispException", "CppLisp/CppLispInterpreter/Lisp.cpp:Lisp::SaveEval"]}
{"id": "C47", "title": "Values are of the kind their type tag says", "statement": "In every state a sequence of scripts can reach, the result of a script, every variable, every list element and every dictionary key has contents of the kind its type tag says (an integer in the 32-bit range for an integer, an existing list for a list, and so on), and no evaluation ever reads a value under a wrong tag or follows a dangling reference.", "quantifier": "every program and every point of its execution", "why_tests_cant": "an invariant over all reachable states; reading a wrong union member is undefined behaviour and invisible to tests", "anchors": ["CppLisp/CppLispInterpreter/Variant.h:LispVariant", "CppLisp/CppLispInterpreter/Variant.cpp:LispVariant::LispVariant", "CppLisp/CppLispInterpreter/Environment.cpp"]}
{"id": "C48", "title": "Bit operators work on two's complement 32-bit integers", "statement": "The operators |, & and ^ combine the two's complement bits of two integers, ~x is -x-1, a << k is a*2^k when a is not negative, 0<=k<=31 and the result fits, and undefined behaviour otherwise; a >> k is the floor of a/2^k for 0<=k<=31 and undefined behaviour otherwise.", "quantifier": "every pair of 32-bit integers", "why_tests_cant": "2^64 operand pairs, with the sign and the shift count as corner cases", "anchors": ["CppLisp/CppLispInterpreter/Variant.cpp:operator|", "CppLisp/CppLispInterpreter/Environment.cpp:ArithmetricOperation"]}
{"id": "C49", "title": "Strings as sequences", "statement": "On a string of any length len is its number of bytes, reverse its bytes in reverse order, first its first byte as a string (of the empty string: the empty string), rest the string without its first byte, last its last byte, nth i its byte at i for 0 <= i < length. nth at index = length gives the empty string instead of an error. rest and last of the empty string and nth at any other index end in a C++ out_of_range exception, which is not a Lisp error.", "quantifier": "every string of any length and every index", "why_tests_cant": "quantifies over all strings and all indices; the boundary index length behaves differently from the ones on both sides", "anchors": ["CppLisp/CppLispInterpreter/Environment.cpp:Rest", "CppLisp/CppLispInterpreter/Environment.cpp:Last", "CppLisp/CppLispInterpreter/Environment.cpp:Nth", "CppLisp/CppLispInterpreter/Environment.cpp:Reverse"]}
{"id": "C50", "title": "Special forms get their arguments unevaluated, functions get values", "statement": "Evaluating a list whose head names a special form calls it with the argument expressions as written. Evaluating a list whose head names an ordinary function first replaces symbols by what they stand for, then evaluates the argument expressions from left to right, each exactly once, and calls the function with the values; if an argument fails, the function is not called and the failure is the outcome.", "quantifier": "every expression, function, argument list, scope and state without macros of that name", "why_tests_cant": "the order and number of evaluations matter for argument programs with arbitrary effects; a test sees only the effects it happens to use", "anchors": ["CppLisp/CppLispInterpreter/Interpreter.cpp:EvalAst", "CppLisp/CppLispInterpreter/Interpreter.cpp:ResolveArgsInScopes"]}
{"id": "C51", "title": "Atoms evaluate to themselves and symbols to what they stand for", "statement": "Evaluating an integer, boolean, string or any other value that is neither symbol nor list gives that value and changes nothing. Evaluating a symbol gives the value of the variable found by the lookup order own scope, global scope, enclosing functions, imported modules, and changes nothing a program can notice; a symbol that is bound nowhere evaluates to itself.", "quantifier": "every value, symbol, scope nesting and state", "why_tests_cant": "the lookup order must be right for every nesting of scopes, functions and modules", "anchors": ["CppLisp/CppLispInterpreter/Interpreter.cpp:EvalAst", "CppLisp/CppLispInterpreter/Scope.cpp:ResolveInScopes"]}
{"id": "C52", "title": "Running a script evaluates the code its text denotes", "statement": "For every script text made of written expressions and comments in which no list begins with the name of a macro, running the text gives exactly the outcomes of evaluating, in the main scope, the code that the grammar assigns to it inside a do, with the script's module name and trace flag noted; before that nothing is changed but new lists being made.", "quantifier": "all source texts, all interpreter states without matching macros", "why_tests_cant": "infinitely many texts and states", "anchors": ["CppLisp/CppLispInterpreter/Lisp.cpp:Lisp::Eval", "CppLisp/CppLispInterpreter/Parser.cpp:LispParser::Parse", "CppLisp/CppLispInterpreter/Interpreter.cpp:ExpandMacros"]}
{"id": "C53", "title": "A debugger with nothing to do changes nothing", "statement": "With no breakpoint set and no step command waiting, an evaluation under the debugger that ends with a value or an error and in which the debugger neither showed its prompt nor reported an error has the same outcome, output, files and final state as without the debugger, and leaves the debugger's settings alone.", "quantifier": "every expression, every program, every state", "why_tests_cant": "all programs; the debugger is called before every function call", "anchors": ["CppLisp/CppLispInterpreter/Interpreter.cpp:EvalAst", "CppLisp/CppLispDebugger/Debugger.cpp:NeedsBreak"]}
{"id": "C54", "title": "How a debugging session ends and starts again", "statement": "An empty line, exit, quit, q and the end of the input leave the dialogue: they end the session, both while the program is stopped and after an error. A program that ends normally is started again in a fresh interpreter, keeping breakpoints, files and output, and stops at its first call. After an error the message is written and a dialogue follows: leaving it ends the session, restart starts the program again, if no round has ended normally yet only after a second dialogue. The word restart typed while the program is stopped does not restart it: the program goes on as after run (witness).", "quantifier": "every program, every state, every input", "why_tests_cant": "all programs and dialogues", "anchors": ["CppLisp/CppLispDebugger/Debugger.cpp:DebuggerLoop", "CppLisp/CppLispDebugger/Debugger.cpp:InteractiveLoop"]}
{"id": "C55", "title": "Frames and expressions at the debugger's prompt", "statement": "up and down move to the neighbouring frame and stay if there is none; a parenthesised expression typed at the prompt is evaluated in the selected frame, its value is written, and the dialogue goes on in the state the evaluation left; if it ends in an error, the error is written and the dialogue goes on.", "quantifier": "every state, frame and expression", "why_tests_cant": "all expressions and stacks", "anchors": ["CppLisp/CppLispDebugger/Debugger.cpp:InteractiveLoop"]}
{"id": "C56", "title": "What is written to a file is read back", "statement": "File-WriteAllText of a name and a text creates or replaces that file and changes nothing else, returning true, or returns false and changes nothing if the file cannot be opened for writing; File-ReadAllText returns the content of the file and File-Exists whether it exists, so a text written is read back. Names end at their first NUL byte. Reading a file that does not exist gives the empty text, so it cannot be told from an empty file (witness).", "quantifier": "every file system, name and text", "why_tests_cant": "all texts, names and file systems", "anchors": ["CppLisp/CppLispInterpreter/Environment.cpp:FileWriteAllText", "CppLisp/CppLispInterpreter/Environment.cpp:FileReadAllText", "CppLisp/CppLispInterpreter/Environment.cpp:FileExits"]}
{"id": "C57", "title": "What print writes, returns and records", "statement": "print and println write the texts of their arguments separated by blanks (println also a newline) and return that text without the newline; empty texts at the front leave no blank. In a scope without trace variables nothing else changes. In a scope with a trace switch and a trace buffer the text is also appended to the buffer, which gettrace returns, whatever the switch says: switching the trace off does not stop the recording (witness). In a function, gettrace, and print after switching the trace on, dereference a null pointer (witness).", "quantifier": "every scope, every list of arguments, every state", "why_tests_cant": "all argument lists and scopes; undefined behaviour", "anchors": ["CppLisp/CppLispInterpreter/Environment.cpp:Print", "CppLisp/CppLispInterpreter/Environment.cpp:PrintLn", "CppLisp/CppLispInterpreter/Environment.cpp:GetStringRepresentation", "CppLisp/CppLispInterpreter/Environment.cpp:GetTracePrint", "CppLisp/CppLispInterpreter/Environment.cpp:TracePrint"]}
{"id": "C58", "title": "Which texts are integers", "statement": "parse-integer and int turn a text into the integer it denotes exactly when, after leading blanks, it is a decimal integer (with or without sign) in the range of 32 bits and nothing follows; for every other text they return the undefined value and raise no error. int leaves integers alone and maps true and false to 1 and 0. Of a value of any other type than int, double, bool and text, int and float make the integer 0.", "quantifier": "every text, every value", "why_tests_cant": "all texts", "anchors": ["CppLisp/CppLispInterpreter/Environment.cpp:ParseInteger", "CppLisp/CppLispInterpreter/Environment.cpp:ToInt", "CppLisp/CppLispInterpreter/Environment.cpp:ToFloat"]}
{"id": "C59", "title": "Doubles without a fraction compute exactly", "statement": "For numbers below 2^53 in size of which the first or one of two is a double: +, -, * of any number of arguments, / when it divides evenly, % and negation give the double of the exact integer result as long as the results stay below 2^53; <, <=, >, >= decide the order, == and != the equality. float of an int and int of a double (rounding towards zero, in range; otherwise undefined behaviour) agree; str of a nonzero one is the integer followed by .000000; parse-float and float of a text read a decimal without fraction after blanks, ignoring what follows, and read back what str wrote. At 2^53 adding 1 changes nothing, infinity is not == to itself, and zero can print as -0.000000 (witnesses).", "quantifier": "every such number, every argument list, every text", "why_tests_cant": "2^54 doubles; rounding is exact only because of how IEEE normalises", "anchors": ["CppLisp/CppLispInterpreter/Variant.cpp:operator+", "CppLisp/CppLispInterpreter/Variant.cpp:EqualOp", "CppLisp/CppLispInterpreter/Environment.cpp:ToFloat", "CppLisp/CppLispInterpreter/Environment.cpp:ParseFloat", "CppLisp/CppLispInterpreter/csstring.cpp"]}
{"id": "C60", "title": "What defining a function does", "statement": "defn with a name, parameters and a body makes the name of the current scope (gdefn: of the global scope) a function that remembers the parameters, the body, the module and the scope of its definition; its signature is the bracketed name with the parameters, its documentation the comment directly before the definition. The value is that function; besides the one variable only the notes of the scope (place, signature and documentation, which stay) change.", "quantifier": "every name, parameter list and body, every scope and state in which defn has its usual meaning", "why_tests_cant": "all definitions in all scopes; that nothing else changes", "anchors": ["CppLisp/CppLispInterpreter/Environment.cpp:defn_form", "CppLisp/CppLispInterpreter/Environment.cpp:gdefn_form", "CppLisp/CppLispInterpreter/Environment.cpp:defn_form_helper", "CppLisp/CppLispInterpreter/Environment.cpp:UpdateDocumentationInformationAtScope"]}
{"id": "C61", "title": "Programs compute what they mean", "statement": "Take the language of programs with 32-bit integers, booleans, texts, (nested) lists, variables, arithmetic and comparison, not, and, the functions on lists and texts (list, cons, append, reverse, len, first, car, rest, cdr, last, nth, str, joining with +), conditional expressions and statements, also without a second branch, blocks, loops, assignment, printing, return, (mutually) recursive functions with call by value, and map and reduce with a function of the program or of the language, given by a big-step semantics. If the semantics gives a program a result, running the text of the program, however laid out and commented, ends with that value, with these variables, and has printed exactly that text; input, files and environment are untouched and no other outcome is possible. Likewise for every statement in every scope of every state in which the functions are defined. In particular the recursive Fibonacci program prints the n-th Fibonacci number for every n up to 46, the program for Euclid's algorithm prints the greatest common divisor of every two nonnegative 32-bit integers, and the program that maps a squaring function over a list and reduces it with + prints the sum of the squares of any integers whose sum of squares fits into 32 bits.", "quantifier": "every program of the language, every layout, every state", "why_tests_cant": "an interpreter can be right on the tested programs and wrong on a combination of scopes, recursion, loops and return; the claim is over all programs and inputs", "anchors": ["CppLisp/CppLispInterpreter/Lisp.cpp:Eval", "CppLisp/CppLispInterpreter/Interpreter.cpp:EvalAst", "CppLisp/CppLispInterpreter/Environment.cpp:fn_form", "CppLisp/CppLispInterpreter/Environment.cpp:while_form", "CppLisp/CppLispInterpreter/Environment.cpp:do_form"]}
{"id": "C62", "title": "Operators on operands of mixed kinds", "statement": "From the first text on, + joins the texts of its operands (booleans as true and false) after the sum of the integers before it; + of lists is a new list of their elements in order, the lists stay as they are. -, *, /, % and the four order comparisons between an integer and an integer, a boolean (0 or 1) or a text (the integer at its start after blanks, 0 if there is none) are exact integer operations; results outside the int range and division by zero are undefined behaviour. + of an integer and a boolean adds 0 or 1. Two operands of which none is a number (for +, none a text or both lists; for the order, none a text) raise an error that names operator and kinds and carries the position of an operand.", "quantifier": "every list of operands of these kinds, every state", "why_tests_cant": "there are 12 kinds per operand and unboundedly many values and argument lists", "anchors": ["CppLisp/CppLispInterpreter/Variant.cpp:operator+", "CppLisp/CppLispInterpreter/Variant.cpp:operator-", "CppLisp/CppLispInterpreter/Variant.cpp:operator<", "CppLisp/CppLispInterpreter/Variant.cpp:ToInt", "CppLisp/CppLispInterpreter/Environment.cpp:ArithmetricOperation"]}
{"id": "C63", "title": "Equality across kinds", "statement": "== of a symbol and a value that is no symbol is false. nil is == only to nil, an undefined value only to an undefined value. An integer is == to a boolean exactly if it is 0 for false or 1 for true. A text is == to a value of another kind exactly if it is the text str makes of it. Different ones of the kinds boolean, list, function, native, l-value and error cannot be compared: an error names the kinds. != is the opposite, and the order of the operands does not matter. == is not transitive (witness).", "quantifier": "every pair of values of these kinds, every state", "why_tests_cant": "all pairs of kinds with all values; not transitive only for certain triples", "anchors": ["CppLisp/CppLispInterpreter/Variant.cpp:EqualOp", "CppLisp/CppLispInterpreter/Variant.cpp:Equals"]}
{"id": "C64", "title": "Other names of functions", "statement": "string, add, sub, mul, div, mod, equal, =, !, first, rest, &&, ||, define-macro, begin and lambda are other names: called with the same arguments in the same state they have the same outcome and the same effects as +, +, -, *, /, %, ==, ==, not, car, cdr, and, or, define-macro-eval, do and fn.", "quantifier": "every argument list, scope and state", "why_tests_cant": "equality of two functions on all inputs", "anchors": ["CppLisp/CppLispInterpreter/Environment.cpp:CreateDefaultScope"]}
{"id": "C65", "title": "Wrong numbers of arguments", "statement": "Each of the 89 functions with a fixed number of arguments, called with another number, raises the error that names the function, the number given and the number expected, and changes nothing; so do format, search, push and pop outside their ranges, and if with neither 2 nor 3 (expected number shown: 18446744073709551615). The names shown differ from the names called for some functions (>>, <<, |, &, ^, ~, car, cdr, defn, gdefn, dict-clear, File-Exists, Math-Truncate). return, trace and sleep called without arguments have undefined behaviour (witnesses).", "quantifier": "every argument list, every scope whose position can be printed, every state", "why_tests_cant": "the number of arguments is unbounded; that nothing is changed or evaluated before the check", "anchors": ["CppLisp/CppLispInterpreter/Environment.cpp:CheckArgs", "CppLisp/CppLispInterpreter/Environment.cpp:CheckOptionalArgs", "CppLisp/CppLispInterpreter/Environment.cpp:if_form", "CppLisp/CppLispInterpreter/Environment.cpp:Return"]}
{"id": "C66", "title": "The arguments of a call", "statement": "In the scope of a running function args is a new list of all arguments of the call, filled up with nil to the number of parameters; argscount is the greater of the numbers of arguments and parameters; arg with a number below that is the argument at that place, any other number raises an error that shows the number and the count. Outside a call argscount is undefined behaviour (witness).", "quantifier": "every call with every number of arguments and parameters, every place", "why_tests_cant": "calls with any number of arguments in any state", "anchors": ["CppLisp/CppLispInterpreter/Environment.cpp:ArgsCount", "CppLisp/CppLispInterpreter/Environment.cpp:Args", "CppLisp/CppLispInterpreter/Environment.cpp:Arg", "CppLisp/CppLispInterpreter/Environment.cpp:fn_form"]}
{"id": "C67", "title": "Searching a list", "statement": "search of a value in a list is the place, counted from 0, of the first element whose text is the text of the value, and -1 if there is none. Nothing is changed.", "quantifier": "every value, every list shorter than 2^31", "why_tests_cant": "lists of every length; first occurrence", "anchors": ["CppLisp/CppLispInterpreter/Environment.cpp:Search"]}
{"id": "C68", "title": "Small functions", "statement": "not is the negation of a boolean. type and typestr give the number and the name of the kind of a value. sym makes a symbol of the text of a value. upper-case and lower-case exchange exactly the letters a-z and A-Z of a 7-bit text; for other bytes the behaviour is undefined. nop and flush are undefined values; version, fuel and copyright give their fixed texts. None of them changes anything.", "quantifier": "every value, every text, every state", "why_tests_cant": "all values and texts; that nothing is changed", "anchors": ["CppLisp/CppLispInterpreter/Environment.cpp:Not", "CppLisp/CppLispInterpreter/Environment.cpp:GetType", "CppLisp/CppLispInterpreter/Environment.cpp:GetTypeString", "CppLisp/CppLispInterpreter/Environment.cpp:Symbol", "CppLisp/CppLispInterpreter/Environment.cpp:UpperCase", "CppLisp/CppLispInterpreter/Environment.cpp:LowerCase", "CppLisp/CppLispInterpreter/Variant.cpp:TypeString"]}
{"id": "C69", "title": "Removing a variable", "statement": "delvar removes the variable with that name from the current scope and from no other, and nothing else; the value says whether there was one.", "quantifier": "every reachable state, every scope and name", "why_tests_cant": "every history of definitions and removals; that all other variables stay", "anchors": ["CppLisp/CppLispInterpreter/Environment.cpp:DelVar"]}
{"id": "C70", "title": "Rounding, absolute values and square roots", "statement": "For every finite double the value of Math-Floor, Math-Ceiling, Math-Truncate and Math-Round is the double of the greatest integer not above it, the least not below it, the next towards zero, and the nearest with halves away from zero, compared with the exact value of the double. Infinity and NaN stay. Numbers without a fraction below 2^53 stay. Math-Abs removes the sign. Math-Sqrt of a square of an integer below 2^53 is that integer.", "quantifier": "every double with a mantissa of 53 bits, every whole number", "why_tests_cant": "2^64 doubles; ties and large exponents", "anchors": ["CppLisp/CppLispInterpreter/Environment.cpp:Math_floor", "CppLisp/CppLispInterpreter/Environment.cpp:Math_ceil", "CppLisp/CppLispInterpreter/Environment.cpp:Math_round", "CppLisp/CppLispInterpreter/Environment.cpp:Math_truncate", "CppLisp/CppLispInterpreter/Environment.cpp:Math_abs", "CppLisp/CppLispInterpreter/Environment.cpp:Math_sqrt"]}
{"id": "C71", "title": "Spliced arguments of a call", "statement": "In a call of an ordinary function an argument whose value is a list marked for splicing by a quasiquote contributes the elements of the list, after the values of the arguments before it; the call is made with exactly these. The arguments behind it are not evaluated: their places are empty, and a function that looks at them dereferences a null pointer (witness: (+ `,@(list 1 2) 3)).", "quantifier": "every call form, every argument list, every scope and state", "why_tests_cant": "any number of arguments, any lists, any values; the effects of the evaluations in order", "anchors": ["CppLisp/CppLispInterpreter/Interpreter.cpp:LispInterpreter::EvalAst", "CppLisp/CppLispInterpreter/Environment.cpp:quasiquote_form"]}
{"id": "C72", "title": "apply, evalstr and rval", "statement": "apply evaluates its first argument once more and calls the function it gets with exactly the elements of the list; if the second argument is no list the error is \"Expected list as arguments in apply\", if the first is no function there is no value and nothing else happens; a failure of the evaluation is the failure of apply. evalstr runs its text in the calling scope under the module name <evalstr>:module:text; after a normal end the module name and the marker of the scope are as before, after a failure they stay changed; evalstr ends exactly if the text ends. rval evaluates a call as a value even where a place is wanted and restores the wish.", "quantifier": "every function value, list, text, scope and state", "why_tests_cant": "all programs given as text; all functions and lists; the state after every outcome", "anchors": ["CppLisp/CppLispInterpreter/Environment.cpp:Apply", "CppLisp/CppLispInterpreter/Environment.cpp:EvalStr", "CppLisp/CppLispInterpreter/Environment.cpp:rval_form"]}
{"id": "C73", "title": "Assignment to places", "statement": "(setf (first l) e), (setf (last l) e) and (setf (nth i l) e) put the value of e at the first, last, i-th place of the list, which keeps all other elements, and change nothing else; a place outside the list is undefined behaviour. A list whose value is a symbol or a text names the variable to assign. If computing the place fails, setf fails with it and the scope keeps wanting places, so a later script gets wrong values from first (witness). Places inside places fail unless written with rval (witness).", "quantifier": "every list, place, expression, scope and state", "why_tests_cant": "lists of any length and expressions with any effects; that all else stays", "anchors": ["CppLisp/CppLispInterpreter/Environment.cpp:setf_form", "CppLisp/CppLispInterpreter/Environment.cpp:First", "CppLisp/CppLispInterpreter/Environment.cpp:Last", "CppLisp/CppLispInterpreter/Environment.cpp:Nth", "CppLisp/CppLispInterpreter/Environment.cpp:CheckForLValue"]}
{"id": "C74", "title": "The listing of the program", "statement": "The code command of the debugger writes every line of the program of the current frame with its number in three columns, B exactly if a breakpoint covers the line, --> exactly at the current line, and the text of the line; then the prompt comes again and nothing else has changed. The program is what was typed so far, the file of the module, or the script of the command line. For code run by evalstr the first nine characters are missing, and for texts of fewer than nine characters the command ends the dialogue with out_of_range. A line with {4} ends the dialogue with an error (witness).", "quantifier": "every program text whose lines have no opening brace, every set of breakpoints, every frame and state", "why_tests_cant": "texts of any length and all sets of breakpoints; that the dialogue goes on unchanged", "anchors": ["CppLisp/CppLispDebugger/Debugger.cpp:LispDebugger::ShowSourceCode", "CppLisp/CppLispDebugger/Debugger.cpp:LispDebugger::HasBreakpointAt", "CppLisp/CppLispDebugger/Debugger.cpp:LispDebugger::InteractiveLoop"]}
{"id": "C75", "title": "What the debugger lists", "statement": "list writes one line per breakpoint with number, line, module and condition in fixed columns, in the order in which the numbers count; stack writes one line per frame, the oldest first, numbered from 1, with name, line and module, and marks the current frame; locals and globals write one line per variable of the current, respectively the global scope, with name, text and kind, leaving out internal variables and built-in functions; (vars) writes the same for its scope. Then the prompt comes again and nothing else has changed.", "quantifier": "every list of breakpoints, every call stack, every scope with variables of simple kinds; names and texts without opening brace", "why_tests_cant": "stacks and scopes of any size; column widths for all lengths; that nothing is changed", "anchors": ["CppLisp/CppLispDebugger/Debugger.cpp:LispDebugger::ShowBreakpoints", "CppLisp/CppLispInterpreter/Scope.cpp:LispScope::DumpStackToString", "CppLisp/CppLispInterpreter/Scope.cpp:LispScope::DumpVars", "CppLisp/CppLispInterpreter/Scope.cpp:LispScope::Dump", "CppLisp/CppLispInterpreter/Environment.cpp:Vars"]}
{"id": "C76", "title": "Names of definitions", "statement": "The first operand of def and gdef may be a symbol, a text, or an expression; an expression is evaluated first, before the second operand. A symbol or text so given names the variable, which gets the value of the second operand in the current, respectively the global scope, and nothing else changes. Anything else is the error \"Symbol expected\", and the second operand is not evaluated. A failure of either evaluation is the failure of the definition, and nothing is defined.", "quantifier": "every name operand, every expression, every scope and state", "why_tests_cant": "expressions with any effects in both places, and that nothing but the one variable changes", "anchors": ["CppLisp/CppLispInterpreter/Environment.cpp:def_form_helper", "CppLisp/CppLispInterpreter/Environment.cpp:def_form", "CppLisp/CppLispInterpreter/Environment.cpp:gdef_form", "CppLisp/CppLispInterpreter/Environment.cpp:EvalArgIfNeeded"]}
{"id": "C77", "title": "Import of modules", "statement": "import takes the first file that exists among: the name as given (backslashes turned into slashes), and, with .fuel added unless it is there, the name in the library directory, in ./Library, in ./lib/fuel, and in FUELPATH if set. Its text runs in a new empty scope named after the file with the global scope of the caller; after a normal end a copy of this scope is the module of that file name, the scope is no longer linked to the caller, and the value is the value of the text; nothing else changes. A failure of the text is the failure of import, and the module is not registered. An empty file does nothing; if no file exists a warning names the module and the last file tried, and the program goes on. Several names are imported one after the other up to a failure. Because a copy is registered, a variable a module function changes keeps its old value for the importing program (witness), and a file m.fuel in the current directory is not found as m (witness).", "quantifier": "every name, every set of files, every library path, every module text, every scope and state", "why_tests_cant": "all file systems and paths; module texts with any effects; what is left unchanged", "anchors": ["CppLisp/CppLispInterpreter/Environment.cpp:Import", "CppLisp/CppLispInterpreter/Environment.cpp:AddFileExtensionIfNeeded", "CppLisp/CppLispInterpreter/Environment.cpp:ConvertToLocalDirectorySeperators", "CppLisp/CppLispInterpreter/Environment.cpp:FindFunctionInModules"]}
{"id": "C78", "title": "Functions of the standard library", "statement": "Run the library lines that define second, length, strlen, dict-len and find, exactly as they stand in the library file, followed by (println (F ...)). For find with a number and any list of numbers, with a text and any list of texts, and with a text and any text (searched as one-character texts), the printed line is the position of the first equal element, counted from 0, or -1 if there is none. second prints the second element of a list of at least two numbers and the second character of a text of at least one character (nothing if there is only one); length and strlen print the number of elements of a list or characters of a text.", "quantifier": "every number, every list of 32-bit integers or texts, every text without quotes and backslashes, up to 2^31-1 elements", "why_tests_cant": "lists and texts of any length; a search that stops early, late or at the wrong equal element passes small tests", "anchors": ["Library/fuellib.fuel", "CppLisp/CppLispInterpreter/Environment.cpp:while_form", "CppLisp/CppLispInterpreter/Environment.cpp:Return", "CppLisp/CppLispInterpreter/Environment.cpp:Nth", "CppLisp/CppLispInterpreter/Environment.cpp:Length"]}
{"id": "C79", "title": "Expansion of a script before it is run", "statement": "Running a script first expands the macros of its whole text and then evaluates the result. In expand-only mode the result is the expanded code, nothing of the script itself is evaluated, and the ordinary run evaluates exactly this code in exactly the state left by the expansion; if the expansion fails, both runs fail in the same way. For a script without macros the expand-only run writes nothing, changes no variable and returns the code, which, up to layout, prints as it was written if its texts contain no quotes and backslashes. Exceptions: the bodies of macros are run during the expansion, so an expand-only run can print; quoted data is expanded as well, so with a macro twice the datum (quote (twice 3)) becomes (quote (+ 3 3)); and a list, quoted or not, which begins with the name of a global variable holding a number or a text makes the script fail, with the message Invalid cast for function, at the position of that value, before anything of the script is run.", "quantifier": "every text of balanced forms, however laid out and commented, every state of the interpreter, every state of the global variables", "why_tests_cant": "scripts of any shape; the two modes must agree on every script, also on those whose expansion fails or prints", "anchors": ["CppLisp/CppLispInterpreter/Lisp.cpp:Eval", "CppLisp/CppLispInterpreter/Interpreter.cpp:ExpandMacros"]}
{"id": "C80", "title": "Code changes only what it can reach", "statement": "Evaluating an expression in a scope changes only those variables, lists and dictionaries that can be reached from the expression and from this scope (following the values of variables, the elements of lists, the entries of dictionaries, the scopes of functions and the links between scopes); calling a function created by a program changes only what can be reached from the function, its arguments and the global scope. Whatever existed before and could not be reached keeps its contents and can afterwards be reached neither from there nor from the result, however the evaluation ends. In particular a call leaves the local variables of its caller alone if no function, list or dictionary elsewhere refers to the scope of the caller. Exceptions: a function created inside of the caller can change the local variables of the caller, and a list that is passed as an argument is shared, so that the called function can change it. The commands of the debugger, which may be evaluated in any scope of the stack, are not covered.", "quantifier": "every sound state of memory (every state between scripts is sound), every expression, every scope, every function created by a program, all arguments, every outcome", "why_tests_cant": "quantifies over all programs and all shapes of memory, including sharing between lists, dictionaries, scopes and functions; tests see only the aliasing they set up", "anchors": ["CppLisp/CppLispInterpreter/Interpreter.cpp:EvalAst", "CppLisp/CppLispInterpreter/Environment.cpp:fn_form", "CppLisp/CppLispInterpreter/Scope.cpp:ResolveInScopes", "CppLisp/CppLispInterpreter/Scope.cpp:SetInScopes"]}
{"id": "C81", "title": "The loop function foreach of the standard library", "statement": "A call of foreach with a list or a text and a function calls the function with each element (each character) once, in order, provided the calls end and leave the container as it is: whatever holds before the first round, and is carried by every call of the function from one round to the next, holds after the loop. So a program that consists of the definition of foreach, further functions, and a call of foreach with println prints every element on its own line; with a function of the program it prints what the calls print, one after the other. The value of the loop is the number of elements, or undefined if there are none. Exceptions: if the function shortens the list, elements are left out and the loop reads behind the end of the list (undefined behaviour); the value of the loop is never the value of the last call.", "quantifier": "all lists and texts of any length up to 2147483647, all functions, all programs of the language of programs with foreach, all sets of files and inputs", "why_tests_cant": "quantifies over the number of rounds and over what the called function does; tests loop over a handful of elements", "anchors": ["Library/fuellib.fuel:foreach", "CppLisp/CppLispInterpreter/Environment.cpp:while_form", "CppLisp/CppLispInterpreter/Environment.cpp:ApplyFcn", "CppLisp/CppLispInterpreter/Environment.cpp:Nth"]}
{"id": "C82", "title": "The documentation of functions", "statement": "doc called with texts or quoted symbols returns, for each of them in order, the entries of the functions among the variables of the calling scope whose name starts with it (searchdoc: whose name contains it), in the order of the names, and a newline at the end; an entry shows a line of dashes, the name taken from the signature, the signature and the description. Called without arguments both return the entries of all built-in functions of the global scope, each followed by a newline; htmldoc returns a page with them. A fresh interpreter has 141 entries. Nothing is printed and nothing is changed. Exceptions: once a macro is defined, every search dereferences a null pointer (undefined behaviour); a variable that is no function and has a wanted name makes the search fail; inside of a function the built-in functions are not found; the name of a function that is not quoted finds nothing, because the function is passed instead of its name.", "quantifier": "all variables of all scopes, all signatures and descriptions without an opening brace, any number of search words", "why_tests_cant": "quantifies over all sets of defined functions, names and signatures; tests look at two or three fixed entries", "anchors": ["CppLisp/CppLispInterpreter/Environment.cpp:DoSearchDocumentation", "CppLisp/CppLispInterpreter/Environment.cpp:DumpDocumentation", "CppLisp/CppLispInterpreter/Scope.cpp:GetFunctionsHelpFormated", "CppLisp/CppLispInterpreter/cstypes.cpp:GetFormatedHelpString"]}
{"id": "C83", "title": "The lines typed at the prompt of the debugger", "statement": "A line is either one of a fixed set of commands, which may be shortened (any line that starts with k, c, t, u, d, l or g is a command, so names of variables with these letters cannot be entered as code), or it is run as code in the chosen frame and 'result=' with the text of the value is printed; if the code fails, its message is printed and the dialogue goes on. version, about and help print fixed texts (help has one line for each of 24 commands). builtins, funcs and doc or searchdoc without a name print one line for each function of the global scope (funcs: with those of the imported modules), macros and modules print the names of the macros and modules, and doc NAME and searchdoc NAME print what the function of that name returns for the quoted name. None of these changes anything but the output. Exceptions: the name of a variable alone is not accepted as code (the error is 'List expected in do'); a failure of doc NAME ends the dialogue and reaches the caller; a break with an opening quote that is not closed ends it with a failure of the text library; clear without an answer yes or no before the input ends never comes back.", "quantifier": "all typed lines, all states, frames and scopes, all functions, macros and modules", "why_tests_cant": "quantifies over all lines and all sets of definitions; the tests type a few fixed lines and never the wrong ones", "anchors": ["CppLisp/CppLispDebugger/Debugger.cpp:InteractiveLoop", "CppLisp/CppLispDebugger/Debugger.cpp:ShowInteractiveCmds", "CppLisp/CppLispInterpreter/Scope.cpp:Dump", "CppLisp/CppLispInterpreter/Scope.cpp:DumpFunctions"]}
{"id": "C84", "title": "Functions made by functions", "statement": "(fn (x...) body) and (lambda (x...) body), evaluated inside a function, make a function that keeps the variables of the call that made it: when the made function is called later, from anywhere, its body has the value it has with its own arguments as the parameters, and, for names that are no parameters, the arguments of the call of the maker (and what the maker itself saw). Such a call changes no variable of an existing scope. A function whose body is (setf x e) sets the variable x of the scope in which it was written and nothing else. Hence counters made by different calls count independently: calling any number of counters in any order, each answers its own count, as far as the counts fit into 32 bits. Exception: a global variable takes precedence over the kept variable when it is read. A function made by (adder 1) answers 14 for 5 after (def n 9), where n is the parameter of adder, and a counter whose variable has the name of a global variable with the value z answers z plus the step at every call.", "quantifier": "all expressions of the language of C61 as bodies, all parameter lists, argument values and states, all families of counters and all orders of calls", "why_tests_cant": "quantifies over all bodies, arguments and interleavings of calls; the one test makes one function, calls it once and has no global variable of the same name", "anchors": ["CppLisp/CppLispInterpreter/Scope.cpp:ResolveInScopes", "CppLisp/CppLispInterpreter/Scope.cpp:SetInScopes", "CppLisp/CppLispInterpreter/Environment.cpp:fn_form"]}
{"id": "C85", "title": "Loops that never end", "statement": "A while loop whose condition is true in every round, and whose rounds all come to their end without return, never ends: its evaluation has neither a value nor an error. The same holds for everything that gets to such a loop: a loop whose condition or one of whose rounds gets there, a block after any statements that end without return, a conditional whose condition or taken branch gets there, an assignment, definition, return or println whose expression gets there, an and whose evaluated operand gets there, a call of a function of the program whose body gets there, a call one of whose arguments gets there after the arguments before it ended (the variables among the arguments must exist, because they are read first), and a whole program, of which no later line is executed, also when it is run by the safe entry point. For example the script (def i A) (while (< i N) (println i)) ends exactly when N <= A, for all 32-bit integers A and N. Runs stopped by lack of memory or by the user are outside the claim, and so is unlimited recursion, which exhausts the stack of the program.", "quantifier": "all programs of the language of C61, all invariants of loops, all states, all integers A and N", "why_tests_cant": "no test can observe that a run never ends, and a test with a time limit covers one program", "anchors": ["CppLisp/CppLispInterpreter/Environment.cpp:while_form", "CppLisp/CppLispInterpreter/Environment.cpp:do_form", "CppLisp/CppLispInterpreter/Interpreter.cpp:EvalAst"]}
{"id": "C86", "title": "Errors name their place", "statement": "A call with a wrong number of arguments, of a function from a fixed list of functions with one number of arguments, raises an error that carries the name of the module of the calling scope, the position of the token evaluated last in that scope, and one line for each call that is active there. The same holds for setf of a nonempty name that no scope can assign, after its value was evaluated. If a special form of that list is called in a program with a wrong number of arguments, the position is that of its name; if do or begin come to a statement without brackets, after any statements that end without return, it is that of this statement. A position consists of line, start and stop as far as they fit into 32 bits; each is -1 where there is no token. For example the error of (setf x 5) in the second line of a script names line 2 and the module of the script. The claim is about errors before they pass through calls of functions.", "quantifier": "all functions of the list, all wrong numbers of arguments, all names, all positions, all states and chains of scopes whose names and module names contain no opening brace", "why_tests_cant": "tests look at the message of a few errors in one module", "anchors": ["CppLisp/CppLispInterpreter/Exception.cpp:LispException", "CppLisp/CppLispInterpreter/Scope.cpp:DumpStackToString", "CppLisp/CppLispInterpreter/Environment.cpp:CheckArgs"]}
{"id": "C87", "title": "What a program learns about its surroundings", "statement": "Without a debugger, break writes a heading, one line for each active call with the newest one marked, and a warning; it changes nothing else, returns the undefined value, and the program goes on. With a debugger attached it writes the same without the warning and starts the dialogue in the calling scope; when the dialogue lets the program go on, it returns the undefined value. platform returns a new list of three texts, UNIX, C++ and 64bit on 64-bit Linux, and changes nothing else. need-l-value tells whether the calling scope is asked for a place instead of a value. Math-Pi returns the double nearest to pi, with all 53 bits of its mantissa. break and platform ignore their arguments.", "quantifier": "all states, all chains of scopes whose names contain no opening brace, all arguments of break and platform", "why_tests_cant": "tests do not look at the text break writes, and cover at most one depth of calls", "anchors": ["CppLisp/CppLispInterpreter/Environment.cpp:Break", "CppLisp/CppLispInterpreter/Environment.cpp:Platform", "CppLisp/CppLispInterpreter/Environment.cpp:NeedLValue", "CppLisp/CppLispInterpreter/Scope.cpp:DumpStack", "CppLisp/CppLispDebugger/Debugger.cpp:InteractiveLoop"]}
{"id": "C88", "title": "Unquoting outside of a template", "statement": "Outside of quasiquote, the forms _unquote and _unquotesplicing with one operand, also written as a comma before it, do not evaluate the operand: their value is the operand itself, as for quote, and nothing is changed but the place noted for error messages. The value of a list operand is the list of the program itself, not a copy as with quote. The naive claim that ,x is the value of x outside of a template is refuted.", "quantifier": "all operands, all scopes in which the names have their standard meaning, all states", "why_tests_cant": "tests use unquoting only inside of templates", "anchors": ["CppLisp/CppLispInterpreter/Environment.cpp:unquote_form", "CppLisp/CppLispInterpreter/Environment.cpp:unquotesplicing_form"]}

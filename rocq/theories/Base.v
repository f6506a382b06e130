(** Byte strings, 32-bit integers and outcomes of C++ computations.
    Shared vocabulary of the model; nothing here models a particular function
    of /repo except where a comment cites one. *)
Require Import String Ascii List ZArith Bool Lia.
Require Import ZifyBool ZifyNat ZifyN.
Import ListNotations.
Open Scope list_scope.

(** std::string / CppLisp::string (csstring.h 116-194) as a list of bytes. *)
Definition str := list ascii.

(** String literals of the C++ source, written [$"text"]. *)
Notation "$ s" := (list_ascii_of_string s%string) (at level 1, s at level 0, format "$ s").

Definition ascii_eqb := Ascii.eqb.

(** std::string ==, inherited by string (csstring.h 116). *)
Fixpoint str_eqb (a b : str) : bool :=
  match a, b with
  | [], [] => true
  | x :: a', y :: b' => Ascii.eqb x y && str_eqb a' b'
  | _, _ => false
  end.

Lemma str_eqb_eq : forall a b, str_eqb a b = true <-> a = b.
Proof.
  induction a as [|x a IH]; destruct b as [|y b]; cbn; try (split; congruence).
  rewrite andb_true_iff, Ascii.eqb_eq, IH. split; [intros [-> ->]; auto | intros H; inversion H; auto].
Qed.

Lemma str_eqb_refl : forall a, str_eqb a a = true.
Proof. intro a. apply str_eqb_eq. reflexivity. Qed.

Lemma str_eqb_neq : forall a b, str_eqb a b = false <-> a <> b.
Proof.
  intros a b. destruct (str_eqb a b) eqn:E.
  - apply str_eqb_eq in E. split; congruence.
  - split; [intros _ H; apply str_eqb_eq in H; congruence | auto].
Qed.

(** Bytes the tokenizer and the parser test for: Tokenizer.cpp 50-175, Parser.cpp 73-135. *)
Definition c_nl : ascii := ascii_of_nat 10.
Definition c_tab : ascii := ascii_of_nat 9.
Definition c_cr : ascii := ascii_of_nat 13.
Definition c_space : ascii := ascii_of_nat 32.
Definition c_dquote : ascii := ascii_of_nat 34.
Definition c_quote : ascii := ascii_of_nat 39.
Definition c_lpar : ascii := ascii_of_nat 40.
Definition c_rpar : ascii := ascii_of_nat 41.
Definition c_comma : ascii := ascii_of_nat 44.
Definition c_semi : ascii := ascii_of_nat 59.
Definition c_at : ascii := ascii_of_nat 64.
Definition c_bslash : ascii := ascii_of_nat 92.
Definition c_bquote : ascii := ascii_of_nat 96.
Definition c_nul : ascii := ascii_of_nat 0.

(** <cctype> isspace in the "C" locale for arguments 0..127: blank, \t \n \v \f \r.
    The code passes a plain [char] (Token.h 62-65, csstring.cpp 87-88); for bytes
    above 127 that is a negative argument and undefined, see [is_7bit]. *)
Definition is_space (c : ascii) : bool :=
  let n := nat_of_ascii c in ((n =? 32) || ((9 <=? n) && (n <=? 13)))%nat.

Definition is_7bit (c : ascii) : bool := (nat_of_ascii c <? 128)%nat.

Definition is_digit (c : ascii) : bool :=
  let n := nat_of_ascii c in ((48 <=? n) && (n <=? 57))%nat.

(** <cctype> toupper / tolower in the C locale, called by csstring.cpp 91-115. *)
Definition to_upper_c (c : ascii) : ascii :=
  let n := nat_of_ascii c in
  if ((97 <=? n) && (n <=? 122))%nat then ascii_of_nat (n - 32) else c.
Definition to_lower_c (c : ascii) : ascii :=
  let n := nat_of_ascii c in
  if ((65 <=? n) && (n <=? 90))%nat then ascii_of_nat (n + 32) else c.

(** ** 32-bit int: the type of integer values, csobject.h 106-125 *)
Open Scope Z_scope.
Definition int_min : Z := -2147483648.
Definition int_max : Z := 2147483647.
Definition in_int (z : Z) : bool := (int_min <=? z) && (z <=? int_max).
(** (int) of a 64-bit or size_t value, as in Environment.cpp 1070-1088: modular (implementation-defined before C++20, two's complement everywhere). *)
Definition wrap32 (z : Z) : Z := (z + 2147483648) mod 4294967296 - 2147483648.
Close Scope Z_scope.

(** ** Exceptions *)
(** Data carried by LispException (Exception.cpp 31-74): line, start, stop, module, stack. *)
Record errinfo := ErrInfo { ei_line : Z; ei_start : Z; ei_stop : Z; ei_module : str; ei_stack : str }.

(** [ELisp] is LispException (Exception.h 51), [ELispBase] a plain LispExceptionBase
    (csexception.h 34); the next two are the standard exceptions thrown by
    std::stoi, std::stod and std::string::substr.  [EStopDebugger] is
    LispStopDebuggerException (Exception.h 81), which inherits privately from
    LispException: a handler for LispExceptionBase does not catch it. *)
Inductive exn :=
| ELisp (msg : str) (info : errinfo)
| ELispBase (msg : str)
| EOutOfRange
| EInvalidArg
| EStopDebugger.

Definition is_lisp_exn (e : exn) : bool :=
  match e with ELisp _ _ | ELispBase _ => true | _ => false end.

Definition exn_msg (e : exn) : str :=
  match e with ELisp m _ | ELispBase m => m | _ => [] end.

(** ** Undefined behaviour: the reasons that occur in the code (no line of /repo defines this type; where each occurs is said at its use) *)
Inductive ub :=
| UBNullDeref        (* dereference of a null shared_ptr *)
| UBIndex            (* vector operator[] / front() / erase out of range *)
| UBOverflow         (* signed integer overflow, bad shift, out-of-range double->int *)
| UBDivZero          (* integer division by zero, INT_MIN / -1 *)
| UBEmptyStack       (* pop() / top() of an empty std::stack *)
| UBBadCast          (* reading a union member / raw pointer of the wrong kind *)
| UBCtype            (* <cctype> function called with a negative char *)
| UBStack            (* unbounded recursion over a cyclic structure *)
| UBScopeChain       (* unbounded recursion along a cyclic chain of scopes *)
| UBComparator       (* std::map whose comparison is not a strict weak order *)
| UBTag              (* a LispVariant whose Value is missing or not of the kind Type says; shown not to occur *)
| UBBadPtr.          (* a heap location or scope that was never allocated; does not occur in C++ runs *)

(** ** Outcomes of a C++ computation without state (vocabulary of the model, no line of /repo) *)
Inductive out (A : Type) : Type :=
| Val (a : A)
| Throw (e : exn)
| Undef (u : ub)
| Unmod (what : str)
| NoFuel.
Arguments Val {A} a.
Arguments Throw {A} e.
Arguments Undef {A} u.
Arguments Unmod {A} what.
Arguments NoFuel {A}.

Definition obind {A B} (m : out A) (f : A -> out B) : out B :=
  match m with
  | Val a => f a
  | Throw e => Throw e
  | Undef u => Undef u
  | Unmod w => Unmod w
  | NoFuel => NoFuel
  end.

Notation "'let?' x := m 'in' k" := (obind m (fun x => k))
  (at level 200, x pattern, right associativity).

Definition is_val {A} (o : out A) : bool := match o with Val _ => true | _ => false end.

(** Functions of the standard library as they stand in its file, and what they should find.  Nothing here models code. *)
Require Import String Ascii List ZArith Bool Lia.
From Verif Require Import Base Value State LispTop SpecRun SpecVal.
Import ListNotations.

(** Lines 45 to 79 of Library/fuellib.fuel, without the blanks before the first comment. *)
Definition library_lines : list str :=
  [$";; return the secod element of a list or a string";
   $"  (defn second (l)";
   $"      (first (cdr l))";
   $"  )";
   $"";
   $"  ;; return the length of a list or a string ";
   $"  (defn length (l)";
   $"      (len l)";
   $"  )";
   $"";
   $"  ;; returns the length of a string  ";
   $"  (defn strlen (s)";
   $"      (len s)";
   $"  )";
   $"";
   $"  ;; returns the number of key/value items in a dictionary";
   $"  (defn dict-len (d)";
   $"      (len d)";
   $"  )";
   $"";
   $"  ;; returns index or position of key if the key is found in the list or string";
   $"  (defn find (key _list)";
   $"    (do";
   $"        (def i 0)";
   $"        (while (< i (len _list))";
   $"           (do";
   $"               (if (== key (nth i _list))";
   $"                  (return i)";
   $"               )";
   $"               (setf i (+ i 1))";
   $"           )";
   $"        )";
   $"        (return -1)";
   $"    )";
   $"  )"].
(** The lines of the file end with carriage return and newline. *)
Definition library : str := concat (map (fun l => l ++ [c_cr; c_nl]) library_lines).

(** [r] is the position of the first [x] in the list, or -1 if there is none. *)
Definition first_at {A} (x : A) (l : list A) (r : Z) : Prop :=
  (r = (-1)%Z /\ ~ In x l) \/ (exists k, r = Z.of_nat k /\ nth_error l k = Some x /\ ~ In x (firstn k l)).
(** The one-character texts of a text. *)
Definition characters (t : str) : list str := map (fun c => [c]) t.
(** A text in double quotes. *)
Definition in_quotes (t : str) : str := [c_dquote] ++ t ++ [c_dquote].
(** The arguments of a call, a blank before each. *)
Definition arguments (ts : list str) : str := concat (map (fun t => $" " ++ t) ts).
(** The script prints the line [t], and [t] is its value. *)
Definition prints (inp : list str) (files : list (str * str)) (e : env) (modname text t : str) : Prop :=
  exists w st', runs false false text modname (init_state inp files e) (Val (Some w)) st' /\ is_str w t /\ st_out st' = t ++ [c_nl].

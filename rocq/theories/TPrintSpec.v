(** TPrintSpec.v -- the text of a tensor, as Matlab would read it. *)
From Verif Require Import Base.
From Coq Require Import String DecimalString.
Local Open Scope string_scope.

Section Text.
Context {V : Type}.
Variable show : V -> string.
Definition newline : string := String (Ascii.ascii_of_nat 10) "".
(** one row of a page: every element followed by a blank *)
Definition row_text (n : nat) (f : nat -> V) : string := concat "" (map (fun j => show (f j) ++ " ") (seq 0 n)).
(** a page: its rows, separated by "; " and a newline *)
Definition page_text (n0 n1 : nat) (f : nat -> nat -> V) : string :=
  "[ ... " ++ newline ++ concat ("; " ++ newline) (map (fun i => row_text n1 (f i)) (seq 0 n0)) ++ "]".
(** a tensor of three or more modes: cat (k, slices) along the last mode k.  [outer] are the extents of modes
    rank, rank - 1, .. 3. *)
Fixpoint cat_text (n0 n1 : nat) (outer : list nat) (f : list nat -> V) : string :=
  match outer with
  | nil => page_text n0 n1 (fun i j => f [i; j])
  | n :: outer =>
      "cat(" ++ NilZero.string_of_uint (Nat.to_uint (3 + List.length outer)) ++ ",..." ++ newline ++
      concat (",..." ++ newline) (map (fun d => cat_text n0 n1 outer (fun i => f (i ++ [d])%list)) (seq 0 n)) ++ ")"
  end.
(** a vector of n elements *)
Definition vector_text (sep : string) (n : nat) (f : nat -> V) : string :=
  "[" ++ concat (sep ++ " ") (map (fun k => show (f k) ++ " ") (seq 0 n)) ++ "]".
End Text.
(** a text without blanks *)
Fixpoint blankless (s : string) : Prop :=
  match s with EmptyString => True | String c s => c <> Ascii.ascii_of_nat 32 /\ blankless s end.

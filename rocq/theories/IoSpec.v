(** IoSpec.v -- the textual format of vectors and matrices, independent of the reading code. *)
From Verif Require Import Base IoModel.
From Coq Require Import Ascii.
Import ListNotations.
Local Open Scope list_scope.
Open Scope char_scope.
Open Scope nat_scope.

(** [c] follows in [s], after white space; [r] is what comes behind it. *)
Definition tok (c : ascii) (s r : text) : Prop :=
  exists w, Forall (fun x => space x = true) w /\ s = w ++ c :: r.

(** Digits, and the number they stand for. *)
Definition digit (c : ascii) : Prop := 48 <= nat_of_ascii c <= 57.
Definition dec_value (ds : text) : N :=
  fold_left (fun a c => (10 * a + N.of_nat (nat_of_ascii c - 48))%N) ds 0%N.

(** A number follows in [s], after white space: an optional sign and all the digits there are; its
    value fits a 64-bit size_type.  A minus sign means 2^64 minus the value, as for every unsigned
    type in C++. *)
Definition size_at (s : text) (n : N) (r : text) : Prop :=
  exists w sg ds, Forall (fun x => space x = true) w /\ s = w ++ sg ++ ds ++ r /\
    ds <> [] /\ Forall digit ds /\ (match r with c :: _ => ~ digit c | [] => True end) /\
    (dec_value ds < 2 ^ 64)%N /\
    ((sg = [] /\ n = dec_value ds) \/ (sg = ["+"] /\ n = dec_value ds) \/
     (sg = ["-"] /\ n = ((2 ^ 64 - dec_value ds) mod 2 ^ 64)%N)).

(** [n] items separated by commas; one comma may follow the last item. *)
Inductive items {A} (item : text -> A -> text -> Prop) : nat -> text -> list A -> text -> Prop :=
| it_none : forall s, items item 0 s [] s
| it_last : forall s x r, item s x r -> items item 1 s [x] r
| it_more : forall n s x r r' l r'', item s x r -> tok "," r r' -> items item n r' l r'' ->
            items item (S n) s (x :: l) r''.

Section Spec.
Context {T : Type}.
Variable getv : text -> text * option T.

(** A value readable by the element's own >> follows. *)
Definition value_at (s : text) (t : T) (r : text) : Prop := getv s = (r, Some t).

(** ( x , ... , x ) *)
Definition bracketed {A} (inner : text -> A -> text -> Prop) (s : text) (x : A) (r : text) : Prop :=
  exists s1 s2, tok "(" s s1 /\ inner s1 x s2 /\ tok ")" s2 r.

(** [ n ] ( x , ... , x ) *)
Definition vector_text (s : text) (l : list T) (r : text) : Prop :=
  exists s1 n s2 s3, tok "[" s s1 /\ size_at s1 n s2 /\ tok "]" s2 s3 /\
    bracketed (items value_at (N.to_nat n)) s3 l r.

(** [ n1 , n2 ] ( ( x , ... ) , ... , ( x , ... ) ) *)
Definition matrix_text (s : text) (n1 n2 : nat) (ll : list (list T)) (r : text) : Prop :=
  exists s1 k1 s2 s3 k2 s4 s5, tok "[" s s1 /\ size_at s1 k1 s2 /\ tok "," s2 s3 /\
    size_at s3 k2 s4 /\ tok "]" s4 s5 /\ n1 = N.to_nat k1 /\ n2 = N.to_nat k2 /\
    bracketed (items (bracketed (items value_at n2)) n1) s5 ll r.

(** The vector / matrix with these elements. *)
Definition is_vector (v : vec T) (l : list T) : Prop :=
  n_ v = List.length l /\ forall i, i < n_ v -> nth_error l i = Some (at_ v i).
Definition is_matrix (m : mat T) (n1 n2 : nat) (ll : list (list T)) : Prop :=
  n1_ m = n1 /\ n2_ m = n2 /\
  forall i j, i < n1 -> j < n2 ->
    match nth_error ll i with Some l => nth_error l j = Some (mat_ m i j) | None => False end.
(** The square matrix of texts is symmetric. *)
Definition symmetric (n : nat) (ll : list (list T)) : Prop :=
  forall i j l l' x y, i < n -> j < n -> nth_error ll i = Some l -> nth_error l j = Some x ->
    nth_error ll j = Some l' -> nth_error l' i = Some y -> x = y.

(** The element type's own text can be read back when a comma or a closing bracket follows, for
    the values satisfying [P]. *)
Definition readable (P : T -> Prop) (putv : T -> text) : Prop :=
  forall t c r, P t -> c = "," \/ c = ")" -> getv (putv t ++ c :: r) = (c :: r, Some t).
End Spec.

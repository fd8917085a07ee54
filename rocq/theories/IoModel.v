(** IoModel.v -- stream output and input of vectors and matrices (io.hpp), at character level.

    A stream is the list of characters still to be read and the failbit.  Simplifications: classic
    locale (no digit grouping), default flags (skipws on), sizes printed in decimal; eofbit is not
    kept (a later extraction at the end of the input fails either way); allocation of the
    intermediate container does not fail; the characters of an element's text contain no NUL
    ([os << s.str ().c_str ()]).  An element's own operators << and >> are parameters [putv], [getv]. *)
From Verif Require Import Base.
From Coq Require Import Ascii Decimal DecimalN.
Import ListNotations.
Local Open Scope list_scope.
Open Scope char_scope.
Open Scope nat_scope.

Definition text := list ascii.

(** std::isspace in the classic locale: \t \n \v \f \r and space. *)
Definition space (c : ascii) : bool :=
  let n := nat_of_ascii c in ((9 <=? n) && (n <=? 13))%nat || (n =? 32)%nat.

Fixpoint skip_ws (s : text) : text :=
  match s with
  | c :: s' => if space c then skip_ws s' else s
  | [] => []
  end.

(** The input stream: characters left, failbit. *)
Record is := IS { rest : text; bad : bool }.

(** is >> ch *)
Definition get_ch (s : is) : is * option ascii :=
  if bad s then (s, None)
  else match skip_ws (rest s) with
       | c :: r => (IS r false, Some c)
       | [] => (IS [] true, None)
       end.

(** if (is >> ch && ch != c) { is.putback (ch); is.setstate (failbit); } -- the boolean says whether
    the branch was taken (io.hpp:94-96 and passim). *)
Definition expect (c : ascii) (s : is) : is * bool :=
  let (s1, o) := get_ch s in
  match o with
  | Some ch => if Ascii.eqb ch c then (s1, false) else (IS (ch :: rest s1) true, true)
  | None => (s1, false)
  end.

(** Decimal digits. *)
Definition is_digit (c : ascii) : bool :=
  let n := nat_of_ascii c in ((48 <=? n) && (n <=? 57))%nat.
Fixpoint dec (d : Decimal.uint) : text :=
  match d with
  | Nil => []
  | D0 d => "0" :: dec d | D1 d => "1" :: dec d | D2 d => "2" :: dec d | D3 d => "3" :: dec d
  | D4 d => "4" :: dec d | D5 d => "5" :: dec d | D6 d => "6" :: dec d | D7 d => "7" :: dec d
  | D8 d => "8" :: dec d | D9 d => "9" :: dec d
  end.
(** s << size (std::num_put of an unsigned integer) *)
Definition put_size (n : N) : text := dec (N.to_uint n).

(** is >> size (std::num_get of a size_type): optional sign, longest run of digits, value modulo
    2^64 for a minus sign as strtoull does, failbit if there is no digit or the value does not fit. *)
Fixpoint num (acc : N) (s : text) : N * text :=
  match s with
  | c :: s' => if is_digit c then num (10 * acc + N.of_nat (nat_of_ascii c - 48)) s' else (acc, s)
  | [] => (acc, [])
  end.
Definition get_size (s : is) : is * N :=
  if bad s then (s, 0%N)
  else
    let s1 := skip_ws (rest s) in
    let '(neg, s2) := match s1 with
                      | c :: r => if Ascii.eqb c "-" then (true, r)
                                  else if Ascii.eqb c "+" then (false, r) else (false, s1)
                      | [] => (false, [])
                      end in
    match s2 with
    | c :: _ =>
        if is_digit c then
          let (n, r) := num 0 s2 in
          if N.ltb n W then (IS r false, if neg then wrap (W - n) else n)
          else (IS r true, wmax)
        else (IS s2 true, 0%N)
    | [] => (IS s2 true, 0%N)
    end.

Section Io.
Context {T : Type}.
Variable putv : T -> text.                         (* s << t *)
Variable getv : text -> text * option T.           (* is >> t: what is left, and the value unless it failed *)

(** is >> t *)
Definition get_val (s : is) : is * option T :=
  if bad s then (s, None)
  else match getv (rest s) with
       | (r, Some t) => (IS r false, Some t)
       | (r, None) => (IS r true, None)
       end.

(** ** Output *)

(** for (i = 1; ...) s << ',' << v (i): io.hpp:59-60, 164-165, 172-173 *)
Definition put_tail (l : list T) : text := flat_map (fun t => "," :: putv t) l.
Definition put_elems (l : list T) : text :=
  match l with [] => [] | t :: l' => putv t ++ put_tail l' end.

(** operator << (os, vector_expression): io.hpp:46-63 *)
Definition put_vector (v : list T) : text :=
  "[" :: put_size (N.of_nat (length v)) ++ "]" :: "(" :: put_elems v ++ [")"].

(** operator << (os, matrix_expression): io.hpp:148-178.  The matrix is given by its sizes and
    elements. *)
Definition row_of (m : nat -> nat -> T) (n2 i : nat) : list T := map (m i) (seq 0 n2).
Definition put_row (l : list T) : text := "(" :: put_elems l ++ [")"].
Definition put_matrix (n1 n2 : nat) (m : nat -> nat -> T) : text :=
  "[" :: put_size (N.of_nat n1) ++ "," :: put_size (N.of_nat n2) ++ "]" :: "(" ::
  (if 0 <? n1 then put_row (row_of m n2 0) else []) ++
  flat_map (fun i => "," :: put_row (row_of m n2 i)) (seq 1 (n1 - 1)) ++ [")"].

(** ** Input *)

(** for (i = 0; i < size; i ++) if (is >> s (i) >> ch && ch != ',') { putback; if (i < size - 1)
    failbit; break; }: io.hpp:106-113; [k] iterations left *)
Fixpoint get_elems (size k i : nat) (s : is) (t : nat -> T) : is * (nat -> T) :=
  match k with
  | 0 => (s, t)
  | S k' =>
      let (s1, ov) := get_val s in
      let t1 := match ov with Some x => fun p => if p =? i then x else t p | None => t end in
      let (s2, oc) := get_ch s1 in
      match oc with
      | Some ch =>
          if Ascii.eqb ch "," then get_elems size k' (S i) s2 t1
          else (IS (ch :: rest s2) (i <? size - 1), t1)
      | None => get_elems size k' (S i) s2 t1
      end
  end%nat.

(** A vector: its size and elements. *)
Record vec := Vec { n_ : nat; at_ : nat -> T }.

(** operator >> (is, vector &): io.hpp:87-123.  [junk]: the contents of a fresh vector. *)
Definition get_vector (junk : nat -> T) (s : is) (v : vec) : is * vec :=
  let (s1, b1) := expect "[" s in
  if b1 then (s1, v) else
  let (s2, size) := get_size s1 in
  let (s3, b3) := expect "]" s2 in
  if b3 then (s3, v) else
  if bad s3 then (s3, v) else
  let n := N.to_nat size in
  let (s4, b4) := expect "(" s3 in
  let '(s5, t) :=
    if b4 then (s4, junk) else
    if bad s4 then (s4, junk) else
    let (s5, t) := get_elems n n 0 s4 junk in
    let (s6, _) := expect ")" s5 in (s6, t) in
  if bad s5 then (s5, v) else (s5, Vec n t).

(** the inner loop of the matrix input over j: io.hpp:227-235 *)
Fixpoint get_row (size2 k i j : nat) (s : is) (t : nat -> nat -> T) : is * (nat -> nat -> T) :=
  match k with
  | 0 => (s, t)
  | S k' =>
      let (s1, ov) := get_val s in
      let t1 := match ov with
                | Some x => fun p q => if ((p =? i) && (q =? j)) then x else t p q
                | None => t end in
      let (s2, oc) := get_ch s1 in
      match oc with
      | Some ch =>
          if Ascii.eqb ch "," then get_row size2 k' i (S j) s2 t1
          else if j <? size2 - 1 then (IS (ch :: rest s2) true, t1)
               else get_row size2 k' i (S j) (IS (ch :: rest s2) false) t1
      | None => get_row size2 k' i (S j) s2 t1
      end
  end%nat.

(** the loop over i: io.hpp:221-248, 304-340; [inner i] is the loop over j of row i *)
Fixpoint get_rows {M} (inner : nat -> is -> M -> is * M) (size1 k i : nat) (s : is) (t : M) : is * M :=
  match k with
  | 0 => (s, t)
  | S k' =>
      let (s1, b1) := expect "(" s in
      if b1 then (s1, t) else
      let (s2, t2) := inner i s1 t in
      let (s3, b3) := expect ")" s2 in
      if b3 then (s3, t2) else
      let (s4, oc) := get_ch s3 in
      match oc with
      | Some ch =>
          if Ascii.eqb ch "," then get_rows inner size1 k' (S i) s4 t2
          else if i <? size1 - 1 then (IS (ch :: rest s4) true, t2)
               else get_rows inner size1 k' (S i) (IS (ch :: rest s4) false) t2
      | None => get_rows inner size1 k' (S i) s4 t2
      end
  end%nat.

Record mat := Mat { n1_ : nat; n2_ : nat; mat_ : nat -> nat -> T }.

(** the part of the matrix input after the sizes: '(' rows ')': io.hpp:216-253, 299-345 *)
Definition get_body {M} (inner : nat -> is -> M -> is * M) (size1 : nat) (s : is) (junk : M) : is * M :=
  let (s4, b4) := expect "(" s in
  if b4 then (s4, junk) else
  if bad s4 then (s4, junk) else
  let (s5, t) := get_rows inner size1 size1 0 s4 junk in
  let (s6, _) := expect ")" s5 in (s6, t).

(** operator >> (is, matrix &): io.hpp:199-258 *)
Definition get_matrix (junk : nat -> nat -> T) (s : is) (m : mat) : is * mat :=
  let (s1, b1) := expect "[" s in
  if b1 then (s1, m) else
  let (s2, size1) := get_size s1 in
  let (s3, b3) := expect "," s2 in
  if b3 then (s3, m) else
  let (s4, size2) := get_size s3 in
  let (s5, b5) := expect "]" s4 in
  if b5 then (s5, m) else
  if bad s5 then (s5, m) else
  let n1 := N.to_nat size1 in
  let n2 := N.to_nat size2 in
  let (s6, t) := get_body (fun i => get_row n2 n2 i 0) n1 s5 junk in
  if bad s6 then (s6, m) else (s6, Mat n1 n2 t).

(** the inner loop for symmetric_matrix: io.hpp:310-327; [value] is the variable declared outside the
    loops, [t] the stored triangle: s (i, j) and s (j, i) are the same element (C06). *)
Variable eqv : T -> T -> bool.                     (* negation of operator != *)
Definition sget (t : nat -> nat -> T) (i j : nat) : T := t (Nat.min i j) (Nat.max i j).
Definition sset (t : nat -> nat -> T) (i j : nat) (x : T) : nat -> nat -> T :=
  fun p q => if (p =? Nat.min i j)%nat && (q =? Nat.max i j)%nat then x else t p q.
Fixpoint get_sym_row (size2 k i j : nat) (s : is) (c : T * (nat -> nat -> T))
  : is * (T * (nat -> nat -> T)) :=
  match k with
  | 0 => (s, c)
  | S k' =>
      let (value, t) := c in
      let (s1, ov) := get_val s in
      let value1 := match ov with Some x => x | None => value end in
      let (s2, oc) := get_ch s1 in
      let store (s3 : is) :=
        if i <=? j then get_sym_row size2 k' i (S j) s3 (value1, sset t i j value1)
        else if eqv (sget t i j) value1 then get_sym_row size2 k' i (S j) s3 (value1, t)
        else (IS (rest s3) true, (value1, t)) in
      match oc with
      | Some ch =>
          if Ascii.eqb ch "," then store s2
          else if j <? size2 - 1 then (IS (ch :: rest s2) true, (value1, t))
               else store (IS (ch :: rest s2) false)
      | None => store s2
      end
  end%nat.

(** operator >> (is, symmetric_matrix &): io.hpp:281-350.  [value0]: the uninitialised MT value. *)
Definition get_symmetric (value0 : T) (junk : nat -> nat -> T) (s : is) (m : mat) : is * mat :=
  let (s1, b1) := expect "[" s in
  if b1 then (s1, m) else
  let (s2, size1) := get_size s1 in
  let (s3, b3) := expect "," s2 in
  if b3 then (s3, m) else
  let (s4, size2) := get_size s3 in
  let (s5, o5) := get_ch s4 in
  match o5 with
  | Some ch =>
      if negb (N.eqb size2 size1) || negb (Ascii.eqb ch "]") then (IS (ch :: rest s5) true, m)
      else
        let n1 := N.to_nat size1 in
        let n2 := N.to_nat size2 in
        let (s6, c) := get_body (fun i => get_sym_row n2 n2 i 0) n1 s5 (value0, junk) in
        if bad s6 then (s6, m) else (s6, Mat n1 n2 (sget (snd c)))
  | None => (s5, m)
  end.
End Io.
Arguments vec : clear implicits.
Arguments mat : clear implicits.

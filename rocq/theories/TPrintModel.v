(** TPrintModel.v -- printing a tensor: operator << and detail::print (tensor/ostream.hpp:26-118).
    The output is the string written to the stream with default formatting; [show] is the text operator << of the element
    type writes (for std::complex<R>: real, "+", imag, "i").  std::endl is a newline.  [w[r]] is read before the loop
    over a mode instead of at each step; pointers past the buffer are only flagged when dereferenced. *)
From Verif Require Import Base TensorModel.
From Coq Require Import String DecimalString.
Open Scope nat_scope.

Definition nl : string := String (Ascii.ascii_of_nat 10) EmptyString.
(** operator << (std::ostream &, std::size_t) *)
Definition dec (n : nat) : string := NilZero.string_of_uint (Nat.to_uint n).

Section TPrint.
Context {V : Type}.
Variable show : V -> string.
Local Open Scope string_scope.

(** print (out, value): 28-31, 34-37 *)
Definition tp_val (x : V) : string := show x ++ " ".
(** the inner loop of a page: 50-54 *)
Definition tp_row (n1 w1 : nat) (B : list V) (p : nat) (out : string) : res string :=
  loop32 n1 (fun p1 => p1 + w1)%nat (fun p1 out => let* x := rdn B p1 in Ok (out ++ tp_val x)) p out.
(** print (out, r, p, w, n): 41-73 *)
Definition tp_page (n w : list nat) (B : list V) (p : nat) (out : string) : res string :=
  let out := out ++ "[ ... " ++ nl in
  let* n0 := rdn n 0 in let* w0 := rdn w 0 in let* n1 := rdn n 1 in let* w1 := rdn w 1 in
  let* out := loop32 n0 (fun q => (fst q + 1, snd q + w0)%nat)
                (fun q out => let* out := tp_row n1 w1 B (snd q) out in
                   Ok (if (fst q <? n0 - 1)%nat then out ++ "; " ++ nl else out)) (0, p) out in
  Ok (out ++ "]").
Fixpoint tp_print (n w : list nat) (B : list V) (r : nat) (p : nat) (out : string) {struct r} : res string :=
  match r with
  | S (S _ as r1) =>
      let out := out ++ "cat(" ++ dec (r + 1) ++ ",..." ++ nl in
      let* nr := rdn n r in let* wr := rdn w r in
      let* st := loop32 (N.to_nat (subw (N.of_nat nr) 1)) (fun u : unit => u)
                   (fun _ st => let* out := tp_print n w B r1 (fst st) (snd st) in
                      Ok ((fst st + wr)%nat, out ++ ",..." ++ nl)) tt (p, out) in
      let* out := tp_print n w B r1 (fst st) (snd st) in
      Ok (out ++ ")")
  | _ => tp_page n w B p out
  end.
(** std::vector::at *)
Definition ext_at (n : list nat) (k : nat) : res nat :=
  match nth_error n k with Some x => Ok x | None => Throw std_out_of_range end.
(** operator <<: 91-118 *)
Definition tp_out (t : tensor V) : res string :=
  let n := t_ext t in
  if is_scalar n then let* x := tensor_lin t 0 in Ok ("[" ++ tp_val x ++ "]")
  else if is_vector n then
    let* a := ext_at n 0 in let* b := ext_at n 1 in
    let cat := if (b <? a)%nat then ";" else "," in
    let last := N.to_nat (subw (N.of_nat (List.length (t_buf t))) 1) in
    let* out := loop32 last (fun i => i + 1)%nat (fun i out => let* x := tensor_lin t i in Ok (out ++ tp_val x ++ cat ++ " ")) 0%nat "[" in
    let* x := tensor_lin t last in
    Ok (out ++ tp_val x ++ "]")
  else tp_print n (t_str t) (t_buf t) (N.to_nat (subw (N.of_nat (List.length n)) 1)) 0 "".
End TPrint.

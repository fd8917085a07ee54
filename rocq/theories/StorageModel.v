(** StorageModel.v -- model of the dense storage arrays of storage.hpp (unbounded_array,
    bounded_array).  size_type is modelled by nat (no arithmetic on sizes takes place here);
    allocation failure is not modelled.  Cells that the code leaves uninitialised hold whatever the
    argument [junk] says: the theorems hold for every [junk]. *)
From Verif Require Import Base.

(** ** std::copy, std::fill, std::swap_ranges on raw storage (pointer arithmetic = list positions) *)
Section Raw.
Context {T : Type}.
(** loop body of std::copy (src + s, src + s + n, dst + d) *)
Definition copy_body (src : list T) (s d k : nat) (dst : list T) : res (list T) :=
  let* v := rdn src (s + k) in wrn dst (d + k) v.
Definition copyM (n : nat) (src : list T) (s : nat) (dst : list T) (d : nat) : res (list T) :=
  iterM n (copy_body src s d) dst.
(** std::fill (dst + d, dst + d + n, v) *)
Definition fill_body (d : nat) (v : T) (k : nat) (dst : list T) : res (list T) := wrn dst (d + k) v.
Definition fillM (n : nat) (dst : list T) (d : nat) (v : T) : res (list T) :=
  iterM n (fill_body d v) dst.
(** std::swap_ranges (a, a + n, b) *)
Definition swap_body (k : nat) (ab : list T * list T) : res (list T * list T) :=
  let '(a, b) := ab in
  let* x := rdn a k in let* y := rdn b k in
  let* a := wrn a k y in let* b := wrn b k x in Ok (a, b).
Definition swap_rangesM (n : nat) (a b : list T) : res (list T * list T) := iterM n swap_body (a, b).
(** freshly allocated, uninitialised cells *)
Definition alloc (junk : nat -> T) (n : nat) : list T := map junk (seq 0 n).
End Raw.

(** ** unbounded_array: storage.hpp:42-355 *)
Section Unbounded.
Context {T : Type}.
(** size_ and data_; [ua_data] is the block pointed to by data_ (empty when data_ = 0). *)
Record uarr := UA { ua_size : nat; ua_data : list T }.

(** unbounded_array (): storage.hpp:60-64 *)
Definition ua_default : uarr := UA 0 [].
(** unbounded_array (size): storage.hpp:65-86, element type with trivial constructor *)
Definition ua_new (junk : nat -> T) (size : nat) : uarr :=
  UA size (if Nat.eqb size 0 then [] else alloc junk size).
(** unbounded_array (size, init): storage.hpp:88-97 *)
Definition ua_new_init (junk : nat -> T) (size : nat) (init : T) : res uarr :=
  if Nat.eqb size 0 then Ok (UA 0 [])
  else let* d := fillM size (alloc junk size) 0 init in Ok (UA size d).
(** unbounded_array (const unbounded_array &c): storage.hpp:98-107 *)
Definition ua_copy (junk : nat -> T) (c : uarr) : res uarr :=
  if Nat.eqb (ua_size c) 0 then Ok (UA 0 [])
  else let* d := copyM (ua_size c) (ua_data c) 0 (alloc junk (ua_size c)) 0 in
       Ok (UA (ua_size c) d).
(** resize_internal: storage.hpp:142-203.  [junk] = contents of the newly allocated block. *)
Definition ua_resize_internal (junk : nat -> T) (a : uarr) (size : nat) (init : T) (preserve : bool)
  : res uarr :=
  if negb (Nat.eqb size (ua_size a)) then
    let* data :=
      if negb (Nat.eqb size 0) then
        let data := alloc junk size in
        if preserve then
          if Nat.ltb size (ua_size a) then copyM size (ua_data a) 0 data 0
          else let* d := copyM (ua_size a) (ua_data a) 0 data 0 in
               fillM (size - ua_size a) d (ua_size a) init
        else Ok data
      else Ok [] in
    Ok (UA size data)
  else Ok a.
(** resize (size): 205-208; resize (size, init): 209-212 *)
Definition ua_resize (junk : nat -> T) (dflt : T) (a : uarr) (size : nat) : res uarr :=
  ua_resize_internal junk a size dflt false.
Definition ua_resize_init (junk : nat -> T) (a : uarr) (size : nat) (init : T) : res uarr :=
  ua_resize_internal junk a size init true.
(** operator []: 230-239 *)
Definition ua_get (chk : bool) (a : uarr) (i : nat) : res T :=
  check chk (Nat.ltb i (ua_size a)) bad_index ;; rdn (ua_data a) i.
Definition ua_set (chk : bool) (a : uarr) (i : nat) (v : T) : res uarr :=
  check chk (Nat.ltb i (ua_size a)) bad_index ;;
  let* d := wrn (ua_data a) i v in Ok (UA (ua_size a) d).
(** operator = (distinct objects): 242-249.  Self assignment is the identity. *)
Definition ua_assign (junk : nat -> T) (dflt : T) (a b : uarr) : res uarr :=
  let* a1 := ua_resize junk dflt a (ua_size b) in
  let* d := copyM (ua_size b) (ua_data b) 0 (ua_data a1) 0 in
  Ok (UA (ua_size a1) d).
(** swap: 257-263; assign_temporary: 250-254 is swap *)
Definition ua_swap (a b : uarr) : uarr * uarr :=
  (UA (ua_size b) (ua_data b), UA (ua_size a) (ua_data a)).
End Unbounded.
Arguments uarr : clear implicits.

(** ** bounded_array<T, N>: storage.hpp:357-549 *)
Section Bounded.
Context {T : Type}.
(** [ba_data] is the C array data_[N]: its length is N for the whole life of the object. *)
Record barr := BA { ba_size : nat; ba_data : list T }.

(** A mutating call: outcome and the object(s) afterwards -- also after an exception. *)
Definition call (S A : Type) := (res A * S)%type.

(** bounded_array (): 377-379 *)
Definition ba_default (junk : nat -> T) (N : nat) : barr := BA 0 (alloc junk N).
(** bounded_array (size): 380-385 *)
Definition ba_new (chk : bool) (junk : nat -> T) (N size : nat) : res barr :=
  check chk (Nat.leb size N) bad_size ;; Ok (BA size (alloc junk N)).
(** bounded_array (size, init): 386-392 *)
Definition ba_new_init (chk : bool) (junk : nat -> T) (N size : nat) (init : T) : res barr :=
  check chk (Nat.leb size N) bad_size ;;
  let* d := fillM size (alloc junk N) 0 init in Ok (BA size d).
(** bounded_array (const bounded_array &): 393-398 *)
Definition ba_copy (junk : nat -> T) (N : nat) (c : barr) : res barr :=
  let* d := copyM (ba_size c) (ba_data c) 0 (alloc junk N) 0 in Ok (BA (ba_size c) d).
(** resize (size): 402-405 *)
Definition ba_resize (chk : bool) (N : nat) (a : barr) (size : nat) : call barr unit :=
  match check chk (Nat.leb size N) bad_size with
  | Ok _ => (Ok tt, BA size (ba_data a))
  | Throw e => (Throw e, a) | UB => (UB, a)
  end.
(** resize (size, init): 407-412 *)
Definition ba_resize_init (chk : bool) (N : nat) (a : barr) (size : nat) (init : T) : call barr unit :=
  match check chk (Nat.leb size N) bad_size with
  | Ok _ =>
      if Nat.ltb (ba_size a) size then
        match fillM (size - ba_size a) (ba_data a) (ba_size a) init with
        | Ok d => (Ok tt, BA size d)
        | Throw e => (Throw e, a) | UB => (UB, a)
        end
      else (Ok tt, BA size (ba_data a))
  | Throw e => (Throw e, a) | UB => (UB, a)
  end.
(** operator []: 432-441 *)
Definition ba_get (chk : bool) (a : barr) (i : nat) : res T :=
  check chk (Nat.ltb i (ba_size a)) bad_index ;; rdn (ba_data a) i.
Definition ba_set (chk : bool) (a : barr) (i : nat) (v : T) : call barr unit :=
  match (check chk (Nat.ltb i (ba_size a)) bad_index ;; wrn (ba_data a) i v) with
  | Ok d => (Ok tt, BA (ba_size a) d)
  | Throw e => (Throw e, a) | UB => (UB, a)
  end.
(** operator = (distinct objects): 444-451; assign_temporary: 452-456 is operator = *)
Definition ba_assign (chk : bool) (N : nat) (a b : barr) : call barr unit :=
  match ba_resize chk N a (ba_size b) with
  | (Ok _, a1) =>
      match copyM (ba_size b) (ba_data b) 0 (ba_data a1) 0 with
      | Ok d => (Ok tt, BA (ba_size a1) d)
      | Throw e => (Throw e, a1) | UB => (UB, a1)
      end
  | r => r
  end.
(** swap (distinct objects): 459-465 *)
Definition ba_swap (a b : barr) : call (barr * barr) unit :=
  let sa := ba_size b in let sb := ba_size a in          (* std::swap (size_, a.size_) *)
  match swap_rangesM (Nat.max sa sb) (ba_data a) (ba_data b) with
  | Ok (da, db) => (Ok tt, (BA sa da, BA sb db))
  | Throw e => (Throw e, (a, b)) | UB => (UB, (a, b))
  end.
End Bounded.
Arguments barr : clear implicits.

(** ** Histories over two arrays of the same type (so that assignment and swap occur in them) *)
Section Histories.
Context {T : Type}.
Inductive which := L | R.
Definition sel {A} (w : which) (p : A * A) : A := match w with L => fst p | R => snd p end.
Definition put {A} (w : which) (a : A) (p : A * A) : A * A :=
  match w with L => (a, snd p) | R => (fst p, a) end.
Definition other (w : which) : which := match w with L => R | R => L end.

(** the API calls *)
Inductive aop :=
| AResize (w : which) (n : nat)                (* w.resize (n) *)
| AResizeInit (w : which) (n : nat) (v : T)    (* w.resize (n, v) *)
| ASet (w : which) (i : nat) (v : T)           (* w[i] = v *)
| AAssign (w : which)                          (* w = other *)
| ASelfAssign (w : which)                      (* w = w *)
| ASwap                                        (* a.swap (b) *)
| ACopyCtor (w : which).                       (* w destroyed and copy-constructed from the other *)

Definition ua_step (junk : nat -> T) (dflt : T) (chk : bool) (p : uarr T * uarr T) (o : aop)
  : res (uarr T * uarr T) :=
  match o with
  | AResize w n => let* a := ua_resize junk dflt (sel w p) n in Ok (put w a p)
  | AResizeInit w n v => let* a := ua_resize_init junk (sel w p) n v in Ok (put w a p)
  | ASet w i v => let* a := ua_set chk (sel w p) i v in Ok (put w a p)
  | AAssign w => let* a := ua_assign junk dflt (sel w p) (sel (other w) p) in Ok (put w a p)
  | ASelfAssign w => Ok p
  | ASwap => Ok (ua_swap (fst p) (snd p))
  | ACopyCtor w => let* a := ua_copy junk (sel (other w) p) in Ok (put w a p)
  end.

Definition lift_call (w : which) (p : barr T * barr T) (c : call (barr T) unit)
  : call (barr T * barr T) unit := (fst c, put w (snd c) p).
Definition ba_step (junk : nat -> T) (chk : bool) (N : nat) (p : barr T * barr T) (o : aop)
  : call (barr T * barr T) unit :=
  match o with
  | AResize w n => lift_call w p (ba_resize chk N (sel w p) n)
  | AResizeInit w n v => lift_call w p (ba_resize_init chk N (sel w p) n v)
  | ASet w i v => lift_call w p (ba_set chk (sel w p) i v)
  | AAssign w => lift_call w p (ba_assign chk N (sel w p) (sel (other w) p))
  | ASelfAssign w => (Ok tt, p)
  | ASwap => ba_swap (fst p) (snd p)
  | ACopyCtor w =>
      match ba_copy junk N (sel (other w) p) with
      | Ok a => (Ok tt, put w a p)
      | Throw e => (Throw e, p) | UB => (UB, p)
      end
  end.
(** A program that catches every exception and goes on: outcomes of all calls, final state. *)
Fixpoint ba_run (junk : nat -> T) (chk : bool) (N : nat) (ops : list aop) (p : barr T * barr T)
  : list (res unit) * (barr T * barr T) :=
  match ops with
  | [] => ([], p)
  | o :: ops => let '(r, p1) := ba_step junk chk N p o in
                let '(rs, p2) := ba_run junk chk N ops p1 in (r :: rs, p2)
  end.
End Histories.
Arguments aop : clear implicits.

(** AdaptorModel.v -- model of array_adaptor (storage.hpp:552-800): an array that either owns its
    memory (new [] / delete []) or works in memory supplied by the user.  The heap is explicit so
    that ownership mistakes (double delete, delete of user memory, leak, use after delete) are
    visible. *)
From Verif Require Import Base StorageModel.

Section Adaptor.
Context {T : Type}.

(** A memory block: [b_live] until deleted, [b_ext] when supplied by the user. *)
Record block := Blk { b_live : bool; b_ext : bool; b_cells : list T }.
Definition heap := list block.          (* block number = pointer to its first cell *)

(** array_adaptor's members size_, own_, data_: storage.hpp:787-790 *)
Record adap := Ad { ad_size : nat; ad_own : bool; ad_ptr : nat }.

(** new value_type [n] *)
Definition h_new (junk : nat -> T) (n : nat) (h : heap) : nat * heap :=
  (length h, h ++ [Blk true false (alloc junk n)]).
(** delete [] p: only memory obtained from new [] and not yet deleted *)
Definition h_delete (p : nat) (h : heap) : res heap :=
  match nth_error h p with
  | Some b => if b_live b && negb (b_ext b) then Ok (upd p (Blk false false (b_cells b)) h) else UB
  | None => UB
  end.
(** access to the cells of a live block *)
Definition h_cells (p : nat) (h : heap) : res (list T) :=
  match nth_error h p with
  | Some b => if b_live b then Ok (b_cells b) else UB
  | None => UB
  end.
Definition h_put (p : nat) (c : list T) (h : heap) : heap :=
  match nth_error h p with
  | Some b => upd p (Blk (b_live b) (b_ext b) c) h
  | None => h
  end.
(** std::copy (src, src + n, dst) *)
Definition h_copy (n src dst : nat) (h : heap) : res heap :=
  let* s := h_cells src h in let* d := h_cells dst h in
  let* d' := copyM n s 0 d 0 in Ok (h_put dst d' h).
(** std::fill (dst + lo, dst + lo + n, v) *)
Definition h_fill (n dst lo : nat) (v : T) (h : heap) : res heap :=
  let* d := h_cells dst h in let* d' := fillM n d lo v in Ok (h_put dst d' h).

(** array_adaptor (size): 570-573 *)
Definition ad_new (junk : nat -> T) (size : nat) (h : heap) : adap * heap :=
  let '(p, h) := h_new junk size h in (Ad size true p, h).
(** array_adaptor (size, init): 574-578 *)
Definition ad_new_init (junk : nat -> T) (size : nat) (init : T) (h : heap) : res (adap * heap) :=
  let '(p, h) := h_new junk size h in
  let* h := h_fill size p 0 init h in Ok (Ad size true p, h).
(** array_adaptor (size, data): 579-581 *)
Definition ad_new_ext (size p : nat) : adap := Ad size false p.
(** ~array_adaptor: 592-596 *)
Definition ad_destroy (a : adap) (h : heap) : res heap :=
  if ad_own a then h_delete (ad_ptr a) h else Ok h.
(** resize_internal (size, init, preserve): 601-614 *)
Definition ad_resize_internal (junk : nat -> T) (size : nat) (init : T) (preserve : bool)
  (a : adap) (h : heap) : res (adap * heap) :=
  if negb (Nat.eqb size (ad_size a)) then
    let '(data, h) := h_new junk size h in
    let* h := if preserve then
                let* h := h_copy (Nat.min size (ad_size a)) (ad_ptr a) data h in
                h_fill (size - Nat.min size (ad_size a)) data (Nat.min size (ad_size a)) init h
              else Ok h in
    let* h := if ad_own a then h_delete (ad_ptr a) h else Ok h in
    Ok (Ad size true data, h)
  else Ok (a, h).
(** resize_internal (size, data, init, preserve): 615-631 *)
Definition ad_resize_ext_internal (size data : nat) (init : T) (preserve : bool)
  (a : adap) (h : heap) : res (adap * heap) :=
  if negb (Nat.eqb data (ad_ptr a)) then
    let* h := if preserve then
                let* h := h_copy (Nat.min size (ad_size a)) (ad_ptr a) data h in
                h_fill (size - Nat.min size (ad_size a)) data (Nat.min size (ad_size a)) init h
              else Ok h in
    let* h := if ad_own a then h_delete (ad_ptr a) h else Ok h in
    Ok (Ad size false data, h)
  else
    let* h := h_fill (size - Nat.min size (ad_size a)) data (Nat.min size (ad_size a)) init h in
    Ok (Ad size (ad_own a) (ad_ptr a), h).
(** operator = (distinct objects): 677-683 *)
Definition ad_assign (junk : nat -> T) (dflt : T) (a b : adap) (h : heap) : res (adap * heap) :=
  let* (a, h) := ad_resize_internal junk (ad_size b) dflt false a h in
  let* h := h_copy (ad_size b) (ad_ptr b) (ad_ptr a) h in Ok (a, h).
(** array_adaptor (const array_adaptor &): 586-591 *)
Definition ad_copy (junk : nat -> T) (dflt : T) (b : adap) (h : heap) : res (adap * heap) :=
  let '(p, h) := h_new junk (ad_size b) h in
  ad_assign junk dflt (Ad (ad_size b) true p) b h.
(** assign_temporary: 685-691; swap: 694-701 *)
Definition ad_assign_temporary (junk : nat -> T) (dflt : T) (a b : adap) (h : heap)
  : res (adap * adap * heap) :=
  if ad_own a && ad_own b then Ok (b, a, h)
  else let* (a, h) := ad_assign junk dflt a b h in Ok (a, b, h).
(** operator []: 665-674 *)
Definition ad_get (chk : bool) (a : adap) (i : nat) (h : heap) : res T :=
  check chk (Nat.ltb i (ad_size a)) bad_index ;; let* c := h_cells (ad_ptr a) h in rdn c i.
Definition ad_set (chk : bool) (a : adap) (i : nat) (v : T) (h : heap) : res heap :=
  check chk (Nat.ltb i (ad_size a)) bad_index ;;
  let* c := h_cells (ad_ptr a) h in let* c := wrn c i v in Ok (h_put (ad_ptr a) c h).

(** ** Programs: any number of adaptors, created and destroyed in any order *)
Inductive dop :=
| DNew (n : nat) | DNewInit (n : nat) (v : T) | DNewExt (n p : nat) | DCopy (i : nat)
| DDestroy (i : nat)
| DResize (i n : nat) | DResizeInit (i n : nat) (v : T)
| DResizeExt (i n p : nat) | DResizeExtInit (i n p : nat) (v : T)
| DAssign (i j : nat) | DAssignTemp (i j : nat) | DSwap (i j : nat)
| DSet (i k : nat) (v : T).

Definition objs := list (option adap).
Definition obj (os : objs) (i : nat) : res adap :=
  match nth_error os i with Some (Some a) => Ok a | _ => UB end.  (* use of a dead object is UB *)

Definition dstep (junk : nat -> T) (dflt : T) (chk : bool) (s : objs * heap) (o : dop)
  : res (objs * heap) :=
  let '(os, h) := s in
  match o with
  | DNew n => let '(a, h) := ad_new junk n h in Ok (os ++ [Some a], h)
  | DNewInit n v => let* (a, h) := ad_new_init junk n v h in Ok (os ++ [Some a], h)
  | DNewExt n p => Ok (os ++ [Some (ad_new_ext n p)], h)
  | DCopy i => let* b := obj os i in let* (a, h) := ad_copy junk dflt b h in Ok (os ++ [Some a], h)
  | DDestroy i => let* a := obj os i in let* h := ad_destroy a h in Ok (upd i None os, h)
  | DResize i n => let* a := obj os i in
      let* (a, h) := ad_resize_internal junk n dflt false a h in Ok (upd i (Some a) os, h)
  | DResizeInit i n v => let* a := obj os i in
      let* (a, h) := ad_resize_internal junk n v true a h in Ok (upd i (Some a) os, h)
  | DResizeExt i n p => let* a := obj os i in
      let* (a, h) := ad_resize_ext_internal n p dflt false a h in Ok (upd i (Some a) os, h)
  | DResizeExtInit i n p v => let* a := obj os i in
      let* (a, h) := ad_resize_ext_internal n p v true a h in Ok (upd i (Some a) os, h)
  | DAssign i j => let* a := obj os i in let* b := obj os j in
      if Nat.eqb i j then Ok (os, h)
      else let* (a, h) := ad_assign junk dflt a b h in Ok (upd i (Some a) os, h)
  | DAssignTemp i j => let* a := obj os i in let* b := obj os j in
      if Nat.eqb i j then Ok (os, h)
      else let* (a, b, h) := ad_assign_temporary junk dflt a b h in
           Ok (upd j (Some b) (upd i (Some a) os), h)
  | DSwap i j => let* a := obj os i in let* b := obj os j in
      if Nat.eqb i j then Ok (os, h) else Ok (upd j (Some a) (upd i (Some b) os), h)
  | DSet i k v => let* a := obj os i in let* h := ad_set chk a k v h in Ok (os, h)
  end.
End Adaptor.
Arguments block : clear implicits.
Arguments heap : clear implicits.
Arguments dop : clear implicits.

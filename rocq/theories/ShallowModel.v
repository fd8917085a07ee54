(** ShallowModel.v -- model of shallow_array_adaptor (storage.hpp:779-1006, compiled with
    BOOST_UBLAS_SHALLOW_ARRAY_ADAPTOR): copies share their memory, which is reference counted.  The
    heap and the record of the members are those of AdaptorModel.v. *)
From Verif Require Import Base StorageModel AdaptorModel.

Section Shallow.
Context {T : Type}.

(** The members size_, own_, data_ (1002-1004) are those of [adap]; data_ is a shared_array.  Its
    deleter is delete [] when own_ is true and the leaker (789-796), which does nothing, when own_ is
    false: every member function that sets one sets the other, so the model keeps own_ only.  The
    reference count of a block is the number of living adaptors that hold it. *)
Definition held (p : nat) (os : objs) : bool :=
  existsb (fun o => match o with Some a => ad_own a && Nat.eqb (ad_ptr a) p | None => false end) os.

(** The end of a shared_array [a] had: the adaptors left are [os]; the last one calls the deleter. *)
Definition drop (os : objs) (a : adap) (h : heap T) : res (heap T) :=
  if ad_own a && negb (held (ad_ptr a) os) then h_delete (ad_ptr a) h else Ok h.

(** resize_internal (size, init, preserve) of object [i]: storage.hpp:840-852. *)
Definition sh_resize (junk : nat -> T) (i size : nat) (init : T) (preserve : bool) (a : adap)
  (os : objs) (h : heap T) : res (objs * heap T) :=
  if negb (Nat.eqb size (ad_size a)) then
    let '(data, h) := h_new junk size h in
    let* h := if preserve then
                let* h := h_copy (Nat.min size (ad_size a)) (ad_ptr a) data h in
                h_fill (size - Nat.min size (ad_size a)) data (Nat.min size (ad_size a)) init h
              else Ok h in
    let os := upd i (Some (Ad size true data)) os in
    let* h := drop os a h in
    Ok (os, h)
  else Ok (os, h).

(** resize_internal (size, data, init, preserve) of object [i]: storage.hpp:853-862. *)
Definition sh_resize_ext (i size data : nat) (init : T) (preserve : bool) (a : adap)
  (os : objs) (h : heap T) : res (objs * heap T) :=
  let* h := if preserve then
              let* h := h_copy (Nat.min size (ad_size a)) (ad_ptr a) data h in
              h_fill (size - Nat.min size (ad_size a)) data (Nat.min size (ad_size a)) init h
            else Ok h in
  let os := upd i (Some (Ad size false data)) os in
  let* h := drop os a h in
  Ok (os, h).

(** operator = of two objects, [b] the right one: storage.hpp:909-916. *)
Definition sh_assign (junk : nat -> T) (dflt : T) (i : nat) (a b : adap) (os : objs) (h : heap T)
  : res (objs * heap T) :=
  let* (os, h) := sh_resize junk i (ad_size b) dflt false a os h in
  let* a := obj os i in
  let* h := h_copy (ad_size b) (ad_ptr b) (ad_ptr a) h in
  Ok (os, h).

(** One call.  Constructors: storage.hpp:808-827; copy constructor: 829-832; destructor: 834-836;
    resize: 864-889; operator =, assign_temporary: 909-924; swap: 927-934; operator []: 897-906. *)
Definition sstep (junk : nat -> T) (dflt : T) (chk : bool) (s : objs * heap T) (o : dop T)
  : res (objs * heap T) :=
  let '(os, h) := s in
  match o with
  | DNew n => let '(a, h) := ad_new junk n h in Ok (os ++ [Some a], h)
  | DNewInit n v => let* (a, h) := ad_new_init junk n v h in Ok (os ++ [Some a], h)
  | DNewExt n p => Ok (os ++ [Some (Ad n false p)], h)
  | DCopy i => let* b := obj os i in Ok (os ++ [Some b], h)
  | DDestroy i => let* a := obj os i in
      let os := upd i None os in let* h := drop os a h in Ok (os, h)
  | DResize i n => let* a := obj os i in sh_resize junk i n dflt false a os h
  | DResizeInit i n v => let* a := obj os i in sh_resize junk i n v true a os h
  | DResizeExt i n p => let* a := obj os i in sh_resize_ext i n p dflt false a os h
  | DResizeExtInit i n p v => let* a := obj os i in sh_resize_ext i n p v true a os h
  | DAssign i j => let* a := obj os i in let* b := obj os j in
      if Nat.eqb i j then Ok (os, h) else sh_assign junk dflt i a b os h
  | DAssignTemp i j => let* a := obj os i in let* b := obj os j in
      if ad_own a && ad_own b
      then if Nat.eqb i j then Ok (os, h) else Ok (upd j (Some a) (upd i (Some b) os), h)
      else if Nat.eqb i j then Ok (os, h) else sh_assign junk dflt i a b os h
  | DSwap i j => let* a := obj os i in let* b := obj os j in
      if Nat.eqb i j then Ok (os, h) else Ok (upd j (Some a) (upd i (Some b) os), h)
  | DSet i k v => let* a := obj os i in let* h := ad_set chk a k v h in Ok (os, h)
  end.
End Shallow.

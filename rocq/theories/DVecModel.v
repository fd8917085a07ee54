(** DVecModel.v -- dense vectors: vector<T, A> (vector.hpp:48-826) over unbounded_array<T> and bounded_array<T, N>,
    bounded_vector<T, N> (1608-1672) and fixed_vector<T, N> (839-1599) over std::array<T, N>.
    Two vectors of the same type are kept (StorageModel: which, sel, put), so that assignment, swapping and expressions that
    read the vector assigned to occur in histories.  Expressions are trees of element-wise operations over the two vectors
    and vectors of other types.  Element assignment loops are the indexing loops of detail/vector_assign.hpp:120-131,
    259-270 (C20 proves the iterating and unrolled ones equal).  [chk]: BOOST_UBLAS_CHECK enabled; [mvs]:
    BOOST_UBLAS_MOVE_SEMANTICS. *)
From Verif Require Import Base SparseLib LayoutModel CMIterModel SpecialModel StorageModel.
Open Scope nat_scope.

(** the operations of the storage array A a vector uses *)
Record store (S T : Type) := Store {
  st_size : S -> nat;
  st_new : nat -> res S;                 (* A (size) *)
  st_new_init : nat -> T -> res S;       (* A (size, init) *)
  st_copy : S -> res S;                  (* A (a) *)
  st_resize : S -> nat -> res S;         (* a.resize (size) *)
  st_resize_init : S -> nat -> T -> res S;  (* a.resize (size, init) *)
  st_get : S -> nat -> res T;            (* a [i] *)
  st_set : S -> nat -> T -> res S;       (* a [i] = x *)
  st_load : S -> nat -> res T;           (* *(a.begin () + k) *)
  st_store : S -> nat -> T -> res S;     (* *(a.begin () + k) = x *)
  st_assign : S -> S -> res S;           (* a = b *)
  st_swap : S -> S -> res (S * S) }.     (* a.swap (b) *)
Arguments Store {S T}. Arguments st_size {S T}. Arguments st_new {S T}. Arguments st_new_init {S T}. Arguments st_copy {S T}.
Arguments st_resize {S T}. Arguments st_resize_init {S T}. Arguments st_get {S T}. Arguments st_set {S T}. Arguments st_load {S T}.
Arguments st_store {S T}. Arguments st_assign {S T}. Arguments st_swap {S T}.

(** unbounded_array: StorageModel; begin (): storage.hpp:270-283 *)
Definition ua_store {T} (chk : bool) (junk : nat -> T) (tzero : T) : store (uarr T) T :=
  Store ua_size (fun n => Ok (ua_new junk n)) (ua_new_init junk) (ua_copy junk) (ua_resize junk tzero) (ua_resize_init junk)
    (ua_get chk) (ua_set chk) (fun a k => rdn (ua_data a) k) (fun a k x => let* d := wrn (ua_data a) k x in Ok (UA (ua_size a) d))
    (ua_assign junk tzero) (fun a b => Ok (ua_swap a b)).
(** bounded_array: StorageModel; begin (): storage.hpp:472-485 *)
Definition of_call {A B} (c : call A B) : res A := let* _ := fst c in Ok (snd c).
Definition ba_store {T} (chk : bool) (junk : nat -> T) (N : nat) : store (barr T) T :=
  Store ba_size (ba_new chk junk N) (ba_new_init chk junk N) (ba_copy junk N) (fun a n => of_call (ba_resize chk N a n))
    (fun a n x => of_call (ba_resize_init chk N a n x)) (ba_get chk) (fun a i x => of_call (ba_set chk a i x))
    (fun a k => rdn (ba_data a) k) (fun a k x => let* d := wrn (ba_data a) k x in Ok (BA (ba_size a) d))
    (fun a b => of_call (ba_assign chk N a b)) (fun a b => of_call (ba_swap a b)).
(** std::array<T, N>, with the index checks fixed_vector makes itself (987-1038).  data_ () is value-initialised whatever the
    size of the expression assigned next (866-904), there is no resize: operator = from a container assigns only
    (1077-1082). *)
Definition fa_store {T} (chk : bool) (tzero : T) (N : nat) : store (list T) T :=
  Store (@length T) (fun _ => Ok (repeat tzero N)) (fun _ x => Ok (repeat x N)) (fun a => Ok a) (fun a _ => Ok a) (fun a _ _ => Ok a)
    (fun a i => check chk (i <? length a) bad_index ;; rdn a i) (fun a i x => check chk (i <? length a) bad_index ;; wrn a i x)
    (fun a k => rdn a k) (fun a k x => wrn a k x) (fun a b => Ok b) (fun a b => Ok (b, a)).

(** element-wise expressions over the two vectors (vector_expression.hpp: vector_unary, vector_binary) and other vectors *)
Inductive vexp (T : Type) :=
| XVec (w : which) | XLit (l : list T) | XUn (f : T -> T) (a : vexp T) | XBin (f : T -> T -> T) (a b : vexp T).
Arguments XVec {T}. Arguments XLit {T}. Arguments XUn {T}. Arguments XBin {T}.

Section DVec.
Context {S T : Type}.
Variable A : store S T.
Variables (chk mvs : bool) (tzero : T).
Implicit Types (a : S) (p : S * S).

(** BOOST_UBLAS_SAME: exception.hpp:273-292 *)
Definition same (n m : nat) : res nat := check chk (n =? m) bad_argument ;; Ok n.
(** size (): vector_expression.hpp vector_unary, vector_binary; element access operator () (i) *)
Fixpoint x_size p (e : vexp T) : res nat :=
  match e with
  | XVec w => Ok (st_size A (sel w p))
  | XLit l => Ok (length l)
  | XUn _ a => x_size p a
  | XBin _ a b => let* n := x_size p a in let* m := x_size p b in same n m
  end.
Fixpoint x_get p (e : vexp T) (i : nat) : res T :=
  match e with
  | XVec w => st_get A (sel w p) i
  | XLit l => check chk (i <? length l) bad_index ;; rdn l i
  | XUn f a => let* x := x_get p a i in Ok (f x)
  | XBin f a b => let* x := x_get p a i in let* y := x_get p b i in Ok (f x y)
  end.

(** constructors: 74-120, 866-904; bounded_vector: 1619-1634 (bounded_vector () is vector (N)) *)
Definition dv_new (n : nat) : res S := st_new A n.
Definition dv_init (n : nat) (x : T) : res S := st_new_init A n x.
(** operator (), operator [], insert_element, erase_element: 231-284, 987-1038 *)
Definition dv_get a (i : nat) : res T := st_get A a i.
Definition dv_set a (i : nat) (x : T) : res S := st_set A a i x.
Definition dv_erase a (i : nat) : res S := st_set A a i tzero.
(** clear: 287-290, 1046-1048 (std::fill over [begin, end)) *)
Definition dv_clear a : res S := iterM (st_size A a) (fun k a => st_store A a k tzero) a.
(** resize: 195-200 *)
Definition dv_resize a (n : nat) (preserve : bool) : res S :=
  if preserve then st_resize_init A a n tzero else st_resize A a n.
(** vector_assign<F> (v, e) with v one of the two vectors: vector_assign.hpp:259-270; F::apply (v (i), e (i)) *)
Definition dv_kernel (w : which) (f : T -> T -> T) (e : vexp T) p : res (S * S) :=
  let* m := x_size p e in let* n := same (st_size A (sel w p)) m in
  iterM n (fun i p => let* x := x_get p e i in let* y := st_get A (sel w p) i in
                      let* a := st_set A (sel w p) i (f y x) in Ok (put w a p)) p.
(** vector (ae): 114-120, 900-904; the new vector is not one the expression reads *)
Definition dv_of p (e : vexp T) : res S :=
  let* n := x_size p e in
  let* a := st_new A n in
  let* m := x_size p e in let* n := same (st_size A a) m in
  iterM n (fun i a => let* x := x_get p e i in st_set A a i x) a.
(** vector_assign_scalar<F> (v, t): vector_assign.hpp:120-131; operator *=, /=: 433-451, 1204-1222 *)
Definition dv_scalar a (f : T -> T) : res S :=
  iterM (st_size A a) (fun i a => let* y := st_get A a i in st_set A a i (f y)) a.
(** swap: 459-464, 1230-1235 *)
Definition dv_swap a b : res (S * S) := st_swap A a b.
(** assign_temporary: 321-325, 1087-1091 *)
Definition dv_take a t : res S := let* r := dv_swap a t in Ok (fst r).
(** operator = (vector): 296-311, 1056-1070 *)
Definition dv_assign_same a b : res S :=
  if mvs then let* t := st_copy A b in dv_take a t else st_assign A a b.
(** v = v: the copy is taken before; without move semantics the array tests for itself (storage.hpp:242-249, 444-451) and
    std::array copies element by element *)
Definition dv_assign_self a : res S :=
  if mvs then let* t := st_copy A a in dv_take a t else Ok a.

Inductive dv_op :=
| DResize (w : which) (n : nat) (preserve : bool)
| DSet (w : which) (i : nat) (x : T)
| DErase (w : which) (i : nat)
| DClear (w : which)
| DSame (w : which)                                    (* w = the other *)
| DSelf (w : which)                                    (* w = w *)
| DCont (w : which) (l : list T)                       (* w = a vector of another type: 313-319, 1077-1082 *)
| DExpr (w : which) (e : vexp T)                       (* w = e: 327-332, 1098-1103 *)
| DComp (w : which) (f : T -> T -> T) (e : vexp T)     (* w += e, w -= e: 356-361, 394-399, 1127-1132, 1165-1170 *)
| DNoalias (w : which) (e : vexp T)                    (* noalias (w) = e, w.assign (e): 339-344, 1110-1115 *)
| DNoaliasComp (w : which) (f : T -> T -> T) (e : vexp T) (* w += container: 369-374, 407-412; plus_assign, minus_assign: 382-387,
                                                            420-425, 1140-1196 *)
| DScalar (w : which) (f : T -> T)
| DSwap.
Definition dv_on (w : which) p (r : res S) : res (S * S) := let* a := r in Ok (put w a p).
Definition dv_step p (o : dv_op) : res (S * S) :=
  match o with
  | DResize w n b => dv_on w p (dv_resize (sel w p) n b)
  | DSet w i x => dv_on w p (dv_set (sel w p) i x)
  | DErase w i => dv_on w p (dv_erase (sel w p) i)
  | DClear w => dv_on w p (dv_clear (sel w p))
  | DSame w => dv_on w p (dv_assign_same (sel w p) (sel (other w) p))
  | DSelf w => dv_on w p (dv_assign_self (sel w p))
  | DCont w l => let* a := dv_resize (sel w p) (length l) false in dv_kernel w (fun _ x => x) (XLit l) (put w a p)
  | DExpr w e => let* t := dv_of p e in dv_on w p (dv_take (sel w p) t)
  | DComp w f e => let* t := dv_of p (XBin f (XVec w) e) in dv_on w p (dv_take (sel w p) t)
  | DNoalias w e => dv_kernel w (fun _ x => x) e p
  | DNoaliasComp w f e => dv_kernel w f e p
  | DScalar w f => dv_on w p (dv_scalar (sel w p) f)
  | DSwap => dv_swap (fst p) (snd p)
  end.

(** ** iterators: pointers into the array, written as the distance from its beginning.  find 495-502, ++, --, +=, -=, -
    547-582, * 587-591, [] 597-600, index 604-608, ==, < 622-635, begin, end 645-660; iterator 669-770; fixed_vector:
    1267-1560.  Moving a pointer out of [begin, end] is undefined. *)
Definition it_move a (q : Z) (n : Z) : res Z :=
  if ((0 <=? q + n)%Z && (q + n <=? Z.of_nat (st_size A a))%Z)%bool then Ok (q + n)%Z else UB.
Definition it_in a (q : Z) : bool := ((0 <=? q)%Z && (q <? Z.of_nat (st_size A a))%Z)%bool.
Definition it_index a (q : Z) : res nat := check chk (it_in a q) bad_index ;; Ok (Z.to_nat q).
Definition it_deref a (q : Z) : res T := check chk (it_in a q) bad_index ;; if (q <? 0)%Z then UB else st_load A a (Z.to_nat q).
Definition it_at a (q n : Z) : res T := if (q + n <? 0)%Z then UB else st_load A a (Z.to_nat (q + n)).
Definition it_diff (q r : Z) : Z := (q - r)%Z.
Definition it_lt (q r : Z) : bool := (q <? r)%Z.
Definition dv_find (i : nat) : Z := Z.of_nat i.
Definition dv_iter a : vops Z T :=
  VOps (st_size A a) (fun i => match st_load A a i with Ok x => x | _ => tzero end) dv_find (dv_find 0) (dv_find (st_size A a))
    (fun q => it_move a q 1) (fun q => it_move a q (-1)) (it_index a) (it_deref a) Z.eqb.
(** *it = x *)
Definition it_store a (q : Z) (x : T) : res S :=
  check chk (it_in a q) bad_index ;; if (q <? 0)%Z then UB else st_store A a (Z.to_nat q) x.
End DVec.
Arguments dv_op : clear implicits.

(** ElModel.v -- sparse_vector_element (vector_sparse.hpp:54-174): the proxy that operator () of a mapped_vector, compressed_vector or
    coordinate_vector returns when BOOST_UBLAS_STRICT_VECTOR_SPARSE is defined, as it is by default (config.hpp:287).
    A proxy is a vector and an index; its cache d_ is written by get_d () before every use, so it is a local value here.  The
    operand of an assignment is a value or another proxy of the same type, not a reference into the storage of the vector.
    The comparisons, which only read, are not modelled. *)
From Verif Require Import Base MapArrayModel MappedModel CVecModel CoordModel CoVecModel SVIterModel StorageModel AssignModel SHistModel.
Open Scope nat_scope.

Section El.
Context {S T : Type}.
Variable A : svops S T.
Variable O : vops T.
Variable chk : bool.
(** find_element (i); the result is the position of the element in the storage, None for a null pointer *)
Variable find : S -> nat -> res (S * option nat).
Notation It := (q_it A).

(** get_d: 66-72 *)
Definition el_get (v : S) (i : nat) : res (S * T) :=
  let* (v, p) := find v i in
  match p with
  | Some q => let* x := si_val It v q in Ok (v, x)
  | None => Ok (v, v0 O)
  end.
(** set: 74-80 *)
Definition el_set (v : S) (i : nat) (s : T) : res S :=
  let* (v, p) := find v i in
  match p with
  | None => q_insert A v i s
  | Some q => si_put It v q s
  end.

(** ref (): 162-169, and an assignment of g of its value through the reference returned, before any other call.  The reference that
    insert_element returns is that of the element just inserted; its position is looked up here by a second search. *)
Definition el_ref (v : S) (i : nat) (g : T -> T) : res S :=
  let* (v, p) := find v i in
  match p with
  | Some q => let* x := si_val It v q in si_put It v q (g x)
  | None =>
      let* v := q_insert A v i (v0 O) in
      let* (v, p) := find v i in
      match p with Some q => let* x := si_val It v q in si_put It v q (g x) | None => UB end
  end.

(** a proxy: the vector it refers to and i_ *)
Definition elem := (which * nat)%type.
(** what get_d () puts into d_ of a proxy *)
Definition el_read (p : S * S) (r : elem) : res ((S * S) * T) :=
  let* (v, x) := el_get (sel (fst r) p) (snd r) in Ok (put (fst r) v p, x).
Definition el_write (p : S * S) (r : elem) (s : T) : res (S * S) :=
  let* v := el_set (sel (fst r) p) (snd r) s in Ok (put (fst r) v p).
(** programs over two vectors and the proxies made so far, numbered in the order of their construction *)
Inductive el_act :=
| ElNew (w : which) (i : nat)            (* w (i): 435-443 / 1022-1030 / 1691-1699, constructor 83-86 *)
| ElCopy (k : nat)                       (* copy constructor: 87-89 *)
| ElSet (k : nat) (x : T)                (* r = x: 102-107 *)
| ElAssign (k j : nat)                   (* r = q: 95-101 *)
| ElComp (k : nat) (f : T -> T -> T) (x : T)   (* r += x, -=, *=, /=: 108-139 *)
| ElCompEl (k : nat) (f : T -> T -> T) (j : nat) (* r += q, ...: the same with q converted to a value, 157-160 *)
| ElRef (k : nat) (g : T -> T)           (* T &x = r.ref (); x = g (x) *)
| ElRead (k : nat)                       (* T x = r: 157-160 *)
| ElCall (o : sv_act T).                 (* any member function call: SHistModel *)
Definition el_nth (rs : list elem) (k : nat) : res elem := match nth_error rs k with Some r => Ok r | None => UB end.
Definition el_step (st : (S * S) * list elem) (a : el_act) : res ((S * S) * list elem) :=
  let '(p, rs) := st in
  match a with
  | ElNew w i => check chk (i <? si_size It (sel w p)) bad_index ;; Ok (p, rs ++ [(w, i)])
  | ElCopy k => let* r := el_nth rs k in Ok (p, rs ++ [r])
  | ElSet k x => let* r := el_nth rs k in let* p := el_write p r x in Ok (p, rs)
  | ElAssign k j =>
      let* r := el_nth rs k in let* q := el_nth rs j in
      let* (p, x) := el_read p q in
      let* p := el_write p r x in Ok (p, rs)
  | ElComp k f x =>
      let* r := el_nth rs k in
      let* (p, d) := el_read p r in
      let* p := el_write p r (f d x) in Ok (p, rs)
  | ElCompEl k f j =>
      let* r := el_nth rs k in let* q := el_nth rs j in
      let* (p, d) := el_read p r in
      let* (p, x) := el_read p q in
      let* p := el_write p r (f d x) in Ok (p, rs)
  | ElRef k g =>
      let* r := el_nth rs k in
      let* v := el_ref (sel (fst r) p) (snd r) g in Ok (put (fst r) v p, rs)
  | ElRead k => let* r := el_nth rs k in let* (p, _) := el_read p r in Ok (p, rs)
  | ElCall o => let* p := sh_step A O chk p o in Ok (p, rs)
  end.
End El.
Arguments el_act : clear implicits.
Arguments el_step {S T}.

Section Kinds.
Context {T : Type}.
(** find_element of mapped_vector: 405-416 (over map_array), compressed_vector: 991-1001, coordinate_vector: 1658-1669 *)
Definition mv_elfind (v : mvec T) (i : nat) : res (mvec T * option nat) :=
  let* it := ma_find (mv_data v) i in Ok (v, if it =? ma_size (mv_data v) then None else Some it).
Variables (O : vops T) (chk : bool) (IB : nat) (std_sort : list (nat * T) -> list (nat * T)).
Definition cv_elfind (v : cvec T) (i : nat) : res (cvec T * option nat) := let* p := cv_find IB v i in Ok (v, p).
Definition co_elfind (v : covec T) (i : nat) : res (covec T * option nat) := co_find (vadd O) IB std_sort chk v i.
End Kinds.

(** MElModel.v -- sparse_matrix_element (matrix_sparse.hpp:29-152): the proxy that operator () of a mapped_matrix, compressed_matrix or
    coordinate_matrix returns when BOOST_UBLAS_STRICT_MATRIX_SPARSE is defined, as it is by default (config.hpp:288).
    As in ElModel: the cache d_ is a local value, the operand of an assignment is a value or another proxy of the same type, and
    the comparisons are not modelled. *)
From Verif Require Import Base LayoutModel SparseLib MapArrayModel MappedModel CMatModel CoMatModel StorageModel AssignModel SMHistModel.
Open Scope nat_scope.

Section El.
Context {S T : Type}.
Variable A : smops S T.
Variable O : vops T.
Variables (chk : bool) (l : layout).
(** find_element (i, j): the position of the element in the storage, None for a null pointer; the value there; writing it *)
Record finder := Finder {
  fd_find : S -> nat -> nat -> res (S * option nat);
  fd_val : S -> nat -> res T;
  fd_put : S -> nat -> T -> res S }.
Variable F : finder.

(** get_d: 42-48 *)
Definition mel_get (v : S) (i j : nat) : res (S * T) :=
  let* (v, p) := fd_find F v i j in
  match p with
  | Some q => let* x := fd_val F v q in Ok (v, x)
  | None => Ok (v, v0 O)
  end.
(** set: 50-56 *)
Definition mel_set (v : S) (i j : nat) (s : T) : res S :=
  let* (v, p) := fd_find F v i j in
  match p with
  | None => r_insert A v i j s
  | Some q => fd_put F v q s
  end.
(** ref (): 140-147, and an assignment of g of its value through the reference returned, before any other call.  The position of the
    element just inserted is looked up here by a second search. *)
Definition mel_ref (v : S) (i j : nat) (g : T -> T) : res S :=
  let* (v, p) := fd_find F v i j in
  match p with
  | Some q => let* x := fd_val F v q in fd_put F v q (g x)
  | None =>
      let* v := r_insert A v i j (v0 O) in
      let* (v, p) := fd_find F v i j in
      match p with Some q => let* x := fd_val F v q in fd_put F v q (g x) | None => UB end
  end.

(** a proxy: the matrix it refers to, i_ and j_ *)
Definition melem := (which * (nat * nat))%type.
Definition mel_read (p : S * S) (r : melem) : res ((S * S) * T) :=
  let* (v, x) := mel_get (sel (fst r) p) (fst (snd r)) (snd (snd r)) in Ok (put (fst r) v p, x).
Definition mel_write (p : S * S) (r : melem) (s : T) : res (S * S) :=
  let* v := mel_set (sel (fst r) p) (fst (snd r)) (snd (snd r)) s in Ok (put (fst r) v p).
(** programs over two matrices and the proxies made so far, numbered in the order of their construction *)
Inductive mel_act :=
| EmNew (w : which) (i j : nat)          (* w (i, j): 401-410 / 3044-3058 / 4478-4489, constructor 60-63; no range check *)
| EmCopy (k : nat)                       (* copy constructor: 64-66 *)
| EmSet (k : nat) (x : T)                (* r = x: 79-84 *)
| EmAssign (k h : nat)                   (* r = q: 72-78 *)
| EmComp (k : nat) (f : T -> T -> T) (x : T)     (* r += x, -=, *=, /=: 85-116 *)
| EmCompEl (k : nat) (f : T -> T -> T) (h : nat) (* r += q, ...: the same with q converted to a value, 133-138 *)
| EmRef (k : nat) (g : T -> T)           (* T &x = r.ref (); x = g (x) *)
| EmRead (k : nat)                       (* T x = r: 133-138 *)
| EmCall (o : sm_act T).                 (* any member function call: SMHistModel *)
Definition mel_nth (rs : list melem) (k : nat) : res melem := match nth_error rs k with Some r => Ok r | None => UB end.
Definition mel_step (st : (S * S) * list melem) (a : mel_act) : res ((S * S) * list melem) :=
  let '(p, rs) := st in
  match a with
  | EmNew w i j => Ok (p, rs ++ [(w, (i, j))])
  | EmCopy k => let* r := mel_nth rs k in Ok (p, rs ++ [r])
  | EmSet k x => let* r := mel_nth rs k in let* p := mel_write p r x in Ok (p, rs)
  | EmAssign k h =>
      let* r := mel_nth rs k in let* q := mel_nth rs h in
      let* (p, x) := mel_read p q in
      let* p := mel_write p r x in Ok (p, rs)
  | EmComp k f x =>
      let* r := mel_nth rs k in
      let* (p, d) := mel_read p r in
      let* p := mel_write p r (f d x) in Ok (p, rs)
  | EmCompEl k f h =>
      let* r := mel_nth rs k in let* q := mel_nth rs h in
      let* (p, d) := mel_read p r in
      let* (p, x) := mel_read p q in
      let* p := mel_write p r (f d x) in Ok (p, rs)
  | EmRef k g =>
      let* r := mel_nth rs k in
      let* v := mel_ref (sel (fst r) p) (fst (snd r)) (snd (snd r)) g in Ok (put (fst r) v p, rs)
  | EmRead k => let* r := mel_nth rs k in let* (p, _) := mel_read p r in Ok (p, rs)
  | EmCall o => let* p := smh_step A O chk l p o in Ok (p, rs)
  end.
End El.
Arguments mel_act : clear implicits.
Arguments finder : clear implicits.
Arguments Finder {S T}.

Section Kinds.
Context {T : Type}.
Variables (O : vops T) (chk : bool) (l : layout) (IB : nat).
(** find_element of mapped_matrix: 377-388, compressed_matrix: 3016-3033, coordinate_matrix: 4448-4468 *)
Definition mm_finder : finder (mmat T) T :=
  Finder (fun m i j => let* p := mm_find chk l m (N.of_nat i) (N.of_nat j) in Ok (m, p))
    (fun m q => let* c := rdn (ma_data (mm_data m)) q in Ok (snd c))
    (fun m q x => let* d := put_at (mm_data m) q x in Ok (MMat (mm_size1 m) (mm_size2 m) d)).
Definition cm_finder : finder (cmat T) T :=
  Finder (fun m i j => let* p := cm_find IB l m i j in Ok (m, p))
    (fun m q => rdn (cm_v m) q)
    (fun m q x => let* v := wrn (cm_v m) q x in Ok (CMat (cm_s1 m) (cm_s2 m) (cm_cap m) (cm_f1 m) (cm_f2 m) (cm_i1 m) (cm_i2 m) v)).
Variable std_sort : list ((nat * nat) * T) -> list ((nat * nat) * T).
Definition ca_finder : finder (comat T) T :=
  Finder (fun m i j => ca_find (vadd O) IB std_sort l chk m i j)
    (fun m q => rdn (ca_val m) q)
    (fun m q x => let* val := wrn (ca_val m) q x in
       Ok (CoMat (ca_s1 m) (ca_s2 m) (ca_cap m) (ca_filled m) (ca_sf m) (ca_sorted m) (ca_idx m) val)).
End Kinds.

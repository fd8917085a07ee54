(** CommaModel.v -- operator<<= and the comma assigners of assignment.hpp.
    File modelled: /repo/include/boost/numeric/ublas/assignment.hpp.
    A statement [v <<= a, b, c, ...;] is a list of items fed one after the other to one assigner
    object.  The target is a value [c : C]; every fill policy is a parameter [put] (the member function
    of the target it calls), instantiated below for vector, matrix, compressed_vector and
    compressed_matrix.  Cursors are 64-bit size_type numbers ([N] modulo 2^64); the indices of the
    expressions being read are unbounded naturals.  An expression reads its elements while the target
    is being written, so its element function takes the present target as an argument. *)
From Verif Require Import Base LayoutModel CVecModel CMatModel.
Open Scope nat_scope.

(** fill_policy::index_assign, index_plus_assign, index_minus_assign, sparse_push_back, sparse_insert:
    assignment.hpp:616-711 *)
Inductive fill := IndexAssign | IndexPlus | IndexMinus | SparsePushBack | SparseInsert.

(** a signed or unsigned number converted to size_type *)
Definition to_size (z : Z) : N := Z.to_N (z mod Z.of_N W).

(** vector_move_to_manip (and its static form), vector_move_manip (and its static form):
    assignment.hpp:46-58, 90-96, 129-140, 170-180 *)
Inductive vmanip := VMoveTo (z : Z) | VMove (z : Z).
Definition vmanip_apply (m : vmanip) (k : N) : N :=
  match m with VMoveTo z => to_size z | VMove z => addw k (to_size z) end.

(** matrix_move_to_manip, matrix_move_manip (dynamic 217-234, 320-337; static 275-284, 374-386),
    begin1 (409-416), begin2 (437-444), next_row (466-474), next_column (495-503) *)
Inductive mmanip := MMoveTo (z1 z2 : Z) | MMove (z1 z2 : Z) | Begin1 | Begin2 | NextRow | NextColumn.
Definition mmanip_apply (m : mmanip) (kl : N * N) : N * N :=
  let '(k, l) := kl in
  match m with
  | MMoveTo z1 z2 => (to_size z1, to_size z2)
  | MMove z1 z2 => (addw k (to_size z1), addw l (to_size z2))
  | Begin1 => (0%N, l)
  | Begin2 => (k, 0%N)
  | NextRow => (addw k 1, 0%N)
  | NextColumn => (0%N, addw l 1)
  end.

(** traverse_policy::wrap / no_wrap: assignment.hpp:741-786 *)
Inductive wrapping := Wrap | NoWrap.
(** apply1 (s, i1, i2): 745-748, 768-775 *)
Definition apply1 (w : wrapping) (s i1 i2 : N) : N * N :=
  match w with
  | NoWrap => (i1, i2)
  | Wrap => if N.leb s i2 then (addw i1 1, 0%N) else (i1, i2)
  end.
(** apply2 (s1, s2, i1, i2): 753-756, 780-785 *)
Definition apply2 (w : wrapping) (s1 s2 i1 i2 : N) : N * N :=
  match w with
  | NoWrap => (i1, i2)
  | Wrap => if N.leb s2 i2 then (i1, 0%N) else (subw i1 s1, i2)
  end.

(** by_row_policy<Wrap> (801-832), by_column_policy<Wrap> (847-878) *)
Inductive trav := ByRow (w : wrapping) | ByColumn (w : wrapping).
(** advance: 804-806, 850-852 *)
Definition advance (t : trav) (ij : N * N) : N * N :=
  let '(i, j) := ij in
  match t with ByRow _ => (i, addw j 1) | ByColumn _ => (addw i 1, j) end.
(** apply_wrap: 827-831, 873-877 *)
Definition apply_wrap (t : trav) (s1 s2 : N) (ij : N * N) : N * N :=
  let '(i, j) := ij in
  match t with
  | ByRow w => apply1 w s2 i j
  | ByColumn w => let '(j', i') := apply1 w s1 j i in (i', j')
  end.
(** next: 808-825, 854-871.  [r], [c]: size of the expression; [s1], [s2]: size of the target; [i0, j0]:
    cursor at the start; [k, l]: position in the expression.  Returns the cursor, (k, l) and whether to
    go on. *)
Definition next (t : trav) (r c : nat) (s1 s2 : N) (ij ij0 : N * N) (kl : nat * nat)
  : (N * N) * (nat * nat) * bool :=
  let '(i, j) := ij in let '(i0, j0) := ij0 in let '(k, l) := kl in
  match t with
  | ByRow w =>
      let l := S l in let j := addw j 1 in
      if c <=? l then
        let l := 0 in let k := S k in let j := j0 in let i := addw i 1 in
        if r <=? k then
          let j := addw j0 (N.of_nat c) in
          (apply2 w (N.of_nat r) s2 i j, (k, l), false)
        else ((i, j), (k, l), true)
      else ((i, j), (k, l), true)
  | ByColumn w =>
      let k := S k in let i := addw i 1 in
      if r <=? k then
        let k := 0 in let l := S l in let i := i0 in let j := addw j 1 in
        if c <=? l then
          let i := addw i0 (N.of_nat r) in
          let '(j', i') := apply2 w (N.of_nat c) s1 j i in ((i', j'), (k, l), false)
        else ((i, j), (k, l), true)
      else ((i, j), (k, l), true)
  end.

Section Assigners.
Context {C T : Type}.

(** * vector_expression_assigner: 929-999 *)
Section Vector.
Variable put : fill -> N -> T -> C -> res C.          (* Fill_Policy::apply (e, i, v) *)

Inductive vitem :=
| VVal (x : T)                                        (* , x *)
| VExp (n : nat) (get : C -> nat -> res T)            (* , e   a vector expression of size n *)
| VManip (m : vmanip)                                 (* , move (k) and friends *)
| VFill (f : fill).                                   (* , fill_policy *)

Record vst := VSt { v_c : C; v_i : N; v_f : fill }.

(** operator, (value) and apply: 963-966, 991-994 *)
Definition v_put (x : T) (s : vst) : res vst :=
  let* c := put (v_f s) (v_i s) x (v_c s) in Ok (VSt c (addw (v_i s) 1) (v_f s)).
(** operator, (vector_expression): 969-974 *)
Definition v_exp_body (get : C -> nat -> res T) (s : vst) (k : nat) : res vst :=
  let* x := get (v_c s) k in v_put x s.
Definition v_exp (n : nat) (get : C -> nat -> res T) (s : vst) : res vst :=
  foldM (v_exp_body get) (seq 0 n) s.
(** operator, : 962-987 *)
Definition v_item (s : vst) (it : vitem) : res vst :=
  match it with
  | VVal x => v_put x s
  | VExp n get => v_exp n get s
  | VManip m => Ok (VSt (v_c s) (vmanip_apply m (v_i s)) (v_f s))
  | VFill f => Ok (VSt (v_c s) (v_i s) f)
  end.
(** v <<= items: operator<<= (1052-1095) builds the assigner at position 0 with index_assign and feeds
    it the first item (a fill policy as first item is taken instead of index_assign) *)
Definition v_assign (c : C) (items : list vitem) : res C :=
  rmap v_c (foldM v_item items (VSt c 0 IndexAssign)).
End Vector.

(** * matrix_expression_assigner: 1105-1206 *)
Section Matrix.
Variable put : fill -> N -> N -> T -> C -> res C.     (* Fill_Policy::apply (e, i, j, v) *)
Variables s1 s2 : N.                                  (* size1 (), size2 () of the target *)

Inductive mitem :=
| MVal (x : T)
| MVec (n : nat) (get : C -> nat -> res T)            (* a vector expression *)
| MMat (r c : nat) (get : C -> nat -> nat -> res T)   (* a matrix expression, r rows, c columns *)
| MManip (m : mmanip)
| MFill (f : fill)
| MTrav (t : trav).

Record mst := MSt { m_c : C; m_ij : N * N; m_f : fill; m_t : trav }.

(** apply (value): 1185-1189 *)
Definition m_put (x : T) (s : mst) : res mst :=
  let* c := put (m_f s) (fst (m_ij s)) (snd (m_ij s)) x (m_c s) in
  Ok (MSt c (advance (m_t s) (m_ij s)) (m_f s) (m_t s)).
(** operator, (value): 1142-1145 *)
Definition m_val (x : T) (s : mst) : res mst :=
  m_put x (MSt (m_c s) (apply_wrap (m_t s) s1 s2 (m_ij s)) (m_f s) (m_t s)).
(** operator, (vector_expression): 1149-1154 *)
Definition m_vec_body (get : C -> nat -> res T) (s : mst) (k : nat) : res mst :=
  let* x := get (m_c s) k in m_val x s.
Definition m_vec (n : nat) (get : C -> nat -> res T) (s : mst) : res mst :=
  foldM (m_vec_body get) (seq 0 n) s.
(** apply (matrix_expression): 1191-1201.  The while loop runs on fuel; [None] is out of fuel and
    counts as undefined behaviour in [m_mat]; the theorems that conclude [Ok] exclude it. *)
Definition m_read_put (get : C -> nat -> nat -> res T) (f : fill) (ij : N * N) (kl : nat * nat) (c : C) : res C :=
  let* x := get c (fst kl) (snd kl) in put f (fst ij) (snd ij) x c.
Fixpoint m_loop (fuel : nat) (get : C -> nat -> nat -> res T) (r c : nat) (f : fill) (t : trav)
  (ij0 ij : N * N) (kl : nat * nat) (m : C) : option (res (C * (N * N))) :=
  match fuel with
  | O => None
  | S fuel' =>
      let '(ij', kl', more) := next t r c s1 s2 ij ij0 kl in
      if more then
        match m_read_put get f ij' kl' m with
        | Ok m' => m_loop fuel' get r c f t ij0 ij' kl' m'
        | Throw e => Some (Throw e)
        | UB => Some UB
        end
      else Some (Ok (m, ij'))
  end.
Definition m_fuel (r c : nat) : nat := S r * S c.
Definition m_mat (r c : nat) (get : C -> nat -> nat -> res T) (s : mst) : res mst :=
  let* m := m_read_put get (m_f s) (m_ij s) (0, 0) (m_c s) in
  match m_loop (m_fuel r c) get r c (m_f s) (m_t s) (m_ij s) (m_ij s) (0, 0) m with
  | None => UB
  | Some o => let* (m', ij') := o in Ok (MSt m' ij' (m_f s) (m_t s))
  end.
(** operator, : 1141-1181; a traverse policy first wraps the cursor with the old policy (1178-1181) *)
Definition m_item (s : mst) (it : mitem) : res mst :=
  match it with
  | MVal x => m_val x s
  | MVec n get => m_vec n get s
  | MMat r c get => m_mat r c get s
  | MManip m => Ok (MSt (m_c s) (mmanip_apply m (m_ij s)) (m_f s) (m_t s))
  | MFill f => Ok (MSt (m_c s) (m_ij s) f (m_t s))
  | MTrav t => Ok (MSt (m_c s) (apply_wrap (m_t s) s1 s2 (m_ij s)) (m_f s) t)
  end.
(** m <<= items: operator<<= (1215-1284) with the default policies (880-890: index_assign, by row with
    wrapping); a traverse policy as the first item is taken without wrapping (1254-1258) *)
Definition m_start (c : C) (items : list mitem) : mst * list mitem :=
  match items with
  | MTrav t :: rest => (MSt c (0%N, 0%N) IndexAssign t, rest)
  | _ => (MSt c (0%N, 0%N) IndexAssign (ByRow Wrap), items)
  end.
Definition m_assign (c : C) (items : list mitem) : res C :=
  let '(s, rest) := m_start c items in rmap m_c (foldM m_item rest s).
End Matrix.
End Assigners.
Arguments vitem : clear implicits. Arguments mitem : clear implicits.

(** * Targets *)
Section Targets.
Context {T : Type}.
Variables tplus tminus : T -> T -> T.                 (* += and -= of the element type *)
Variable chk : bool.

(** the value an element [o] gets from [x]; index_assign and insert overwrite *)
Definition fill_op (f : fill) (o x : T) : T :=
  match f with IndexPlus => tplus o x | IndexMinus => tminus o x | _ => x end.

(** vector<T>: operator () is data () [i] (vector.hpp:222-232, storage.hpp:232-240), insert_element is
    data () [i] = t (vector.hpp:257-259); there is no push_back, such a program does not compile
    (modelled as UB, excluded by every theorem) *)
Definition vec_put (f : fill) (i : N) (x : T) (v : list T) : res (list T) :=
  match f with
  | SparsePushBack => UB
  | _ => check chk (N.ltb i (lenN v)) bad_index ;;
         let* o := rd v i in wr v i (fill_op f o x)
  end.

(** matrix<T>: at_element (i, j) is data () [layout_type::element (i, size1_, j, size2_)]
    (matrix.hpp:247-259, 294-296) *)
Record dmat := DMat { d_1 : N; d_2 : N; d_data : list T }.
(** operator () const: matrix.hpp:237-239 *)
Definition mat_get (l : layout) (m : dmat) (i j : N) : res T :=
  let* a := element chk l i (d_1 m) j (d_2 m) in
  check chk (N.ltb a (lenN (d_data m))) bad_index ;; rd (d_data m) a.
Definition mat_put (l : layout) (f : fill) (i j : N) (x : T) (m : dmat) : res dmat :=
  match f with
  | SparsePushBack => UB
  | _ => let* a := element chk l i (d_1 m) j (d_2 m) in
         check chk (N.ltb a (lenN (d_data m))) bad_index ;;
         let* o := rd (d_data m) a in
         let* d := wr (d_data m) a (fill_op f o x) in Ok (DMat (d_1 m) (d_2 m) d)
  end.

(** compressed_vector: e () (i) op= v through the reference (vector_sparse.hpp:1005-1024; for += and -=
    the old value, zero when absent, is read first), push_back, insert_element.  The index is converted
    to the unbounded naturals of CVecModel. *)
Variable tzero : T.
Variable IB : nat.
Variables (junkI : nat -> nat) (junkV : nat -> T).
Definition cvec_put (f : fill) (i : N) (x : T) (v : cvec T) : res (cvec T) :=
  match f with
  | SparsePushBack => cv_push tzero IB junkI junkV chk v (N.to_nat i) x
  | SparseInsert => rmap fst (cv_insert tzero IB junkI junkV chk v (N.to_nat i) (Ext x))
  | IndexAssign => cv_set tzero IB junkI junkV chk v (N.to_nat i) x
  | _ => let* o := cv_get tzero IB chk v (N.to_nat i) in
         cv_set tzero IB junkI junkV chk v (N.to_nat i) (fill_op f o x)
  end.

(** compressed_matrix: e () (i, j) op= v (matrix_sparse.hpp, ref () as modelled in CMatModel), push_back,
    insert_element *)
Definition cmat_put (l : layout) (f : fill) (i j : N) (x : T) (m : cmat T) : res (cmat T) :=
  match f with
  | SparsePushBack => cm_push tzero IB junkI junkV l chk m (N.to_nat i) (N.to_nat j) x
  | SparseInsert => rmap fst (cm_insert tzero IB junkI junkV l chk m (N.to_nat i) (N.to_nat j) x)
  | IndexAssign => cm_set tzero IB junkI junkV l chk m (N.to_nat i) (N.to_nat j) x
  | _ => let* o := cm_get tzero IB l m (N.to_nat i) (N.to_nat j) in
         cm_set tzero IB junkI junkV l chk m (N.to_nat i) (N.to_nat j) (fill_op f o x)
  end.
End Targets.
Arguments DMat {T}. Arguments d_1 {T}. Arguments d_2 {T}. Arguments d_data {T}. Arguments dmat : clear implicits.

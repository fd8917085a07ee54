(** BlasModel.v -- model of the BLAS interface, /repo/include/boost/numeric/ublas/blas.hpp:23-495,
    on top of the aliasing model of assignment ([AliasModel]): every call works on a memory of dense
    containers, its const arguments are expressions (or scalar references) that are re-read from the
    CURRENT memory, and the destination may be any container or proxy.

    Simplifications: those of AliasModel.v; the BOOST_UBLAS_SIMPLE_ET_DEBUG variants (which write
    m = m + ... instead of m += ...) are not modelled; value types are one type T (no promotion). *)
From Verif Require Import Base AssignModel FieldLib LinStore NormModel InnerModel AliasModel TriModel.
Open Scope nat_scope.

(** The scalar operations the wrappers use beyond those of [vops]: unary minus and type_traits<T>::conj
    (traits.hpp:189, 300). *)
Record bops (T : Type) := BOps { b_v : vops T; b_neg : T -> T; b_conj : T -> T }.
Arguments BOps {T} _ _ _. Arguments b_v {T} _. Arguments b_neg {T} _ _. Arguments b_conj {T} _ _.

Section Blas.
Context {T : Type} (B : bops T).
Notation O := (b_v B).
(** [chk]: BOOST_UBLAS_CHECK_ENABLE; [o1], [o2]: the order in which the kernels visit elements;
    [junk]: the indeterminate contents of fresh storage. *)
Variable chk : bool.
Variables o1 o2 : order.
Variable junk : nat -> nat -> T.

(** A scalar argument is a const reference: what it refers to is read when it is used. *)
Definition sref := st T -> T.

(** t * e: vector_binary_scalar1/matrix_binary_scalar1 keep a reference to t
    (vector_expression.hpp:1011, 1038, matrix_expression.hpp:2954, 2990). *)
Definition x_scale (t : sref) (e : exp T) : exp T :=
  Exp (x_sz e) (fun s i j => let* a := AliasModel.x_at e s i j in Ok (vmul O (t s) a)).
(** outer_prod (e1, e2): vector_matrix_binary, matrix_expression.hpp:321- (sizes 353-360, element
    375-378). *)
Definition x_outer (e1 e2 : exp T) : exp T :=
  Exp (fun s => let* a := x_sz e1 s in let* b := x_sz e2 s in Ok (fst a, fst b))
      (fun s i j => let* a := AliasModel.x_at e1 s i 0 in let* b := AliasModel.x_at e2 s j 0 in Ok (vmul O a b)).
(** conj (e), herm (e): vector_expression.hpp:500-505, matrix_expression.hpp:2001-2008 (matrix_unary2). *)
Definition x_conj (e : exp T) : exp T := x_un (b_conj B) e.
Definition x_herm (e : exp T) : exp T := x_trans (x_un (b_conj B) e).

(** The destination of a call: a container, or a proxy into one. *)
Inductive dest := Whole (x : nat) | Part (w : view).
Definition d_exp (d : dest) : exp T := match d with Whole x => x_obj chk x | Part w => x_view chk w end.
Definition d_view (s : st T) (d : dest) : view := match d with Whole x => whole s x | Part w => w end.
(** d = e and d += e (vector.hpp:327-331, 359-363, matrix.hpp:350-355, 362-366, vector_proxy.hpp:149-152,
    161-164, matrix_proxy.hpp:125-128, 137-140); [t]: the temporary. *)
Definition assign_to (t : nat) (d : dest) (e : exp T) : cmd T :=
  match d with
  | Whole x => container_assign O chk o1 junk t x e
  | Part w => proxy_assign O chk o1 o2 junk t w e
  end.
Definition plus_to (t : nat) (d : dest) (e : exp T) : cmd T :=
  match d with
  | Whole x => container_plus O chk o1 junk t x e
  | Part w => proxy_plus O chk o1 o2 junk t w e
  end.

(** ** blas_1 *)
(** copy: 88-92, v1.assign (v2) *)
Definition copy (d : dest) (e : exp T) : cmd T := fun s => assign_direct O chk o2 FAssign (d_view s d) e s.
(** swap of two containers: 103-107, v1.swap (v2) *)
Definition swap (x y : nat) : cmd T := fun s => (swap_obj s x y, Ok tt).
(** scal: 118-122, v *= t *)
Definition scal (d : dest) (t : sref) : cmd T := fun s => assign_scalar O o2 FTimes (d_view s d) t s.
(** axpy: 135-139, v1.plus_assign (t * v2) *)
Definition axpy (d : dest) (t : sref) (e : exp T) : cmd T := fun s =>
  assign_direct O chk o2 FPlus (d_view s d) (x_scale t e) s.
(** rot: 159-165.  [- t2] is a temporary computed once.  [t]: the identity of vt. *)
Definition rot (t : nat) (t1 : sref) (v1 : dest) (t2 : sref) (v2 : dest) : cmd T :=
  and_then (construct O chk o1 junk t
              (x_bin chk (vadd O) (x_scale t1 (d_exp v1)) (x_scale t2 (d_exp v2))))
  (and_then (fun s => let n2 := b_neg B (t2 s) in
               assign_direct O chk o2 FAssign (d_view s v2)
                 (x_bin chk (vadd O) (x_scale (fun _ => n2) (d_exp v1)) (x_scale t1 (d_exp v2))) s)
            (fun s => assign_direct O chk o2 FAssign (d_view s v1) (x_obj chk t) s)).

(** ** blas_2 *)
(** tmv: 185-189 *)
Definition tmv (t : nat) (d : dest) (m : exp T) : cmd T := assign_to t d (x_prod O chk m (d_exp d)).
(** gmv: 223-227 *)
Definition gmv (t : nat) (d : dest) (t1 t2 : sref) (m v : exp T) : cmd T :=
  assign_to t d (x_bin chk (vadd O) (x_scale t1 (d_exp d)) (x_scale t2 (x_prod O chk m v))).
(** gr: 241-249 *)
Definition gr (t : nat) (d : dest) (c : sref) (v1 v2 : exp T) : cmd T := plus_to t d (x_scale c (x_outer v1 v2)).
(** sr: 262-270 *)
Definition sr (t : nat) (d : dest) (c : sref) (v : exp T) : cmd T := plus_to t d (x_scale c (x_outer v v)).
(** hr: 283-291 *)
Definition hr (t : nat) (d : dest) (c : sref) (v : exp T) : cmd T := plus_to t d (x_scale c (x_outer v (x_conj v))).
(** sr2: 306-314 *)
Definition sr2 (t : nat) (d : dest) (c : sref) (v1 v2 : exp T) : cmd T :=
  plus_to t d (x_scale c (x_bin chk (vadd O) (x_outer v1 v2) (x_outer v2 v1))).
(** hr2: 329-337; conj (t) is a temporary computed once. *)
Definition hr2 (t : nat) (d : dest) (c : sref) (v1 v2 : exp T) : cmd T := fun s =>
  let cc := b_conj B (c s) in
  plus_to t d (x_bin chk (vadd O) (x_scale c (x_outer v1 (x_conj v2)))
                                  (x_scale (fun _ => cc) (x_outer v2 (x_conj v1)))) s.

(** ** blas_3 *)
(** tmm: 362-366 *)
Definition tmm (t : nat) (d : dest) (c : sref) (m2 m3 : exp T) : cmd T := assign_to t d (x_scale c (x_prod O chk m2 m3)).
(** gmm: 401-405 *)
Definition gmm (t : nat) (d : dest) (t1 t2 : sref) (m2 m3 : exp T) : cmd T :=
  assign_to t d (x_bin chk (vadd O) (x_scale t1 (d_exp d)) (x_scale t2 (x_prod O chk m2 m3))).
(** srk: 421-425 *)
Definition srk (t : nat) (d : dest) (t1 t2 : sref) (m2 : exp T) : cmd T :=
  assign_to t d (x_bin chk (vadd O) (x_scale t1 (d_exp d)) (x_scale t2 (x_prod O chk m2 (x_trans m2)))).
(** hrk: 441-445 *)
Definition hrk (t : nat) (d : dest) (t1 t2 : sref) (m2 : exp T) : cmd T :=
  assign_to t d (x_bin chk (vadd O) (x_scale t1 (d_exp d)) (x_scale t2 (x_prod O chk m2 (x_herm m2)))).
(** sr2k: 463-467 *)
Definition sr2k (t : nat) (d : dest) (t1 t2 : sref) (m2 m3 : exp T) : cmd T :=
  assign_to t d (x_bin chk (vadd O) (x_scale t1 (d_exp d))
    (x_scale t2 (x_bin chk (vadd O) (x_prod O chk m2 (x_trans m3)) (x_prod O chk m3 (x_trans m2))))).
(** hr2k: 485-492 *)
Definition hr2k (t : nat) (d : dest) (t1 t2 : sref) (m2 m3 : exp T) : cmd T := fun s =>
  let cc := b_conj B (t2 s) in
  assign_to t d (x_bin chk (vadd O)
    (x_bin chk (vadd O) (x_scale t1 (d_exp d)) (x_scale t2 (x_prod O chk m2 (x_herm m3))))
    (x_scale (fun _ => cc) (x_prod O chk m3 (x_herm m2)))) s.
End Blas.
Arguments sref : clear implicits.

(** ** The functions without destination: blas_1 32-36, 45-49, 58-62, 74-78 *)
Definition asum {F R} (N : nops F R) := v_norm_1 N.
Definition nrm2 {F R} (N : nops F R) := v_norm_2 N.
Definition amax {F R} (N : nops F R) := v_norm_inf N.
Definition dot {T} (O : vops T) := inner_prod O.

(** ** Triangular solves: need division, so the scalars are those of [TriModel]. *)
Section Solve.
Context {F : Type} (K : fops F).
Variables chk sck : bool.
Variables o1 o2 : order.
Variable junk : nat -> nat -> F.
Definition vops_of : vops F := VOps (f0 K) (fadd K) (fsub K) (fmul K) (fdiv K) (feqb K).
Definition bops_of : bops F := BOps vops_of (fopp K) (fun x => x).

(** d = r where r is the container returned by solve (a prvalue with identity [t]): for a container
    resize and copy (vector.hpp:305-309, matrix.hpp:338-343), for a proxy through the temporary [t2]. *)
Definition assign_result (t t2 : nat) (d : dest) : cmd F :=
  match d with
  | Whole x => container_copy vops_of chk o1 junk x t
  | Part w => proxy_assign vops_of chk o1 o2 junk t2 w (x_obj chk t)
  end.
(** the result r (e2) is constructed and solved in place: triangular.hpp:2440-2449, 2762-2771; [t] its
    identity, [m] the triangular operand as read from memory. *)
Definition run_solve (t : nat) (k : obj F -> res (obj F)) : cmd F := fun s =>
  match k (s t) with
  | Ok r => (set_obj s t r, Ok tt)
  | Throw ex => (s, Throw ex)
  | UB => (s, UB)
  end.
Definition solve_vec (m : mexp F) (tag : ttag) (r : obj F) : res (obj F) :=
  let* x := inplace_solve K chk sck m (Vec (o_1 r) (fun i => o_at r i 0)) tag in
  Ok (Obj (vn x) 1 (fun i _ => vat x i)).
Definition solve_obj (m : mexp F) (tag : ttag) (r : obj F) : res (obj F) :=
  let* x := inplace_solve_mat K chk sck m (Mat (o_1 r) (o_2 r) (o_at r)) tag in
  Ok (Obj (mn1 x) (mn2 x) (mat_at x)).
(** tsv: 202-206, v = solve (m, v, C ()) *)
Definition tsv (t t2 : nat) (d : dest) (m : st F -> mexp F) (tag : ttag) : cmd F := fun s =>
  and_then (construct vops_of chk o1 junk t (d_exp chk d))
    (and_then (fun s1 => run_solve t (solve_vec (m s1) tag) s1) (assign_result t t2 d)) s.
(** tsm: 381-385, m1 = solve (m2, t * m1, C ()) *)
Definition tsm (t t2 : nat) (d : dest) (c : sref F) (m : st F -> mexp F) (tag : ttag) : cmd F := fun s =>
  and_then (construct vops_of chk o1 junk t (x_scale bops_of c (d_exp chk d)))
    (and_then (fun s1 => run_solve t (solve_obj (m s1) tag) s1) (assign_result t t2 d)) s.
End Solve.

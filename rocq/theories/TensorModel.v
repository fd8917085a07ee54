(** TensorModel.v -- model of the uBLAS tensor extension: extents, strides, element access and the
    pointer kernels of tensor/algorithms.hpp and tensor/multiplication.hpp.
    Paths below are relative to /repo/include/boost/numeric/ublas/tensor/.

    Conventions.  Extents, strides, ranks, modes and permutation tuples are (lists of) natural
    numbers; products of extents and the linear index wrap modulo 2^64 as [std::size_t] does.  A
    pointer into a tensor buffer is an offset into the list of its cells; dereferencing an offset
    outside the list is [UB].  Moving a pointer past its buffer without dereferencing it is not
    flagged.  The output buffer is distinct from the inputs (the public functions allocate it). *)
From Verif Require Import Base.
Open Scope nat_scope.

(** std::size_t multiplication and addition. *)
Definition wmul (a b : nat) : nat := N.to_nat (mulw (N.of_nat a) (N.of_nat b)).
Definition wadd (a b : nat) : nat := N.to_nat (addw (N.of_nat a) (N.of_nat b)).

(** ** Extents: extents/extents_functions.hpp *)

(** is_valid: extents_functions.hpp:48-52. *)
Definition is_valid (e : list nat) : bool := forallb (fun a => 0 <? a) e.

(** is_scalar: extents_functions.hpp:55-59. *)
Definition is_scalar (e : list nat) : bool := (0 <? length e) && forallb (fun a => a =? 1) e.

(** is_vector: extents_functions.hpp:62-76. *)
Definition is_vector (e : list nat) : bool :=
  match e with
  | [] => false
  | [a] => 1 <=? a
  | a :: b :: t =>
      ((1 <=? a) || (1 <=? b)) && ((a =? 1) || (b =? 1)) && forallb (fun x => x =? 1) t
  end.

(** product: extents_functions.hpp:105-113. *)
Definition product (e : list nat) : nat :=
  match e with [] => 0 | _ => fold_left wmul e 1 end.

Inductive tlayout := FirstOrder | LastOrder.          (* layout.hpp:17-22 *)

(** to_strides: extents_functions.hpp:149-165 (dynamic rank), 167-183 (static rank, same body).
    [std::transform] reads the strides it has already written. *)
Definition stride_fwd (e : list nat) (s : list nat) (k : nat) : res (list nat) :=
  let* a := rdn e k in let* b := rdn s k in wrn s (S k) (wmul a b).
Definition stride_bwd (e : list nat) (s : list nat) (k : nat) : res (list nat) :=
  let j := length e - 1 - k in
  let* a := rdn e j in let* b := rdn s j in wrn s (j - 1) (wmul a b).
Definition to_strides (L : tlayout) (e : list nat) : res (list nat) :=
  let s := repeat 1 (length e) in
  if (match e with [] => true | _ => false end) || is_vector e || is_scalar e then Ok s
  else match L with
       | FirstOrder => foldM (stride_fwd e) (seq 0 (length e - 1)) s
       | LastOrder => foldM (stride_bwd e) (seq 0 (length e - 1)) s
       end.

(** to_strides_v: extents/extents_static_functions.hpp:567-594, the strides of a tensor whose
    extents are template arguments ([product_v]: 333-345, [select_t]: 190-212, [reverse_t]:
    259-276). *)
Definition to_strides_static (L : tlayout) (e : list nat) : list nat :=
  let adj := match L with FirstOrder => e | LastOrder => rev e end in
  let pre := 1 :: map (fun i => product (firstn (i + 1) adj)) (seq 0 (length e - 1)) in
  match L with FirstOrder => pre | LastOrder => rev pre end.

(** to_index: index_functions.hpp:34-61 ([std::inner_product], then [T{}] is added first). *)
Fixpoint to_index_from (acc : nat) (i w : list nat) : res nat :=
  match i, w with
  | [], _ => Ok acc
  | x :: i', y :: w' => to_index_from (wadd acc (wmul x y)) i' w'
  | _ :: _, [] => UB                          (* w.begin () runs past the strides *)
  end.
Definition to_index (w i : list nat) : res nat := to_index_from 0 i w.

(** ** The tensor object: tensor/tensor_dynamic.hpp:454-457 (members). *)
Record tensor (V : Type) := Tensor { t_ext : list nat; t_str : list nat; t_buf : list V }.
Arguments Tensor {V} _ _ _. Arguments t_ext {V} _. Arguments t_str {V} _. Arguments t_buf {V} _.

Section Tensor.
Context {V : Type}.

(** Value-type operations used by the kernels: V{}, + and *. *)
Record tops := TOps { tz : V; tadd : V -> V -> V; tmul : V -> V -> V }.

(** extents_core (base_type): extents/extents_dynamic_size.hpp:51-58. *)
Definition make_extents (e : list nat) : res (list nat) :=
  if is_valid e then Ok e else Throw std_invalid_argument.

(** tensor_core (extents_type e) and (extents_type e, value_type i): tensor_dynamic.hpp:109-131;
    tensor_static_rank.hpp:94-101.  [std::vector<V> (n)] value-initialises. *)
Definition make_tensor (L : tlayout) (e : list nat) (v : V) : res (tensor V) :=
  let* w := to_strides L e in Ok (Tensor e w (repeat v (product e))).

(** tensor_core (extents_type e, container_type a): tensor_dynamic.hpp:138-150. *)
Definition make_tensor_from (L : tlayout) (e : list nat) (a : list V) : res (tensor V) :=
  let* w := to_strides L e in
  if length a =? product e then Ok (Tensor e w a) else Throw std_invalid_argument.

(** tensor_core::at (i1, i2, is...): tensor_dynamic.hpp:300-329 (also operator (): 339-357), for two
    or more indices.  With one index the code is the linear at (i) (383-397), which for rank 1 is
    the same.  [std::vector::at] throws out_of_range. *)
Definition tensor_at (t : tensor V) (i : list nat) : res V :=
  if length i =? length (t_ext t) then
    let* k := to_index (t_str t) i in
    match nth_error (t_buf t) k with Some x => Ok x | None => Throw std_out_of_range end
  else Throw std_invalid_argument.

(** tensor_core::operator [] (i): tensor_dynamic.hpp:365-377, unchecked. *)
Definition tensor_lin (t : tensor V) (k : nat) : res V := rdn (t_buf t) k.

(** ** Loops of the kernels *)

(** [for (i = 0; i < n; p += step, ++ i) body (p)] with a 64-bit counter. *)
Fixpoint sloop {P S : Type} (n : nat) (adv : P -> P) (body : P -> S -> res S) (p : P) (s : S)
  : res S :=
  match n with
  | 0 => Ok s
  | Datatypes.S n' => let* s' := body p s in sloop n' adv body (adv p) s'
  end.

(** The same loop with [auto i = 0u], a 32-bit counter compared with a 64-bit extent: for an
    extent of 2^32 or more the counter wraps before it reaches the extent, so the loop never
    ends while its pointers keep advancing: they leave every buffer, which is [UB]. *)
Definition loop32 {P S : Type} (n : nat) (adv : P -> P) (body : P -> S -> res S) (p : P) (s : S)
  : res S :=
  if N.ltb (N.of_nat n) (2 ^ 32)%N then sloop n adv body p s else UB.

Definition ptr2 := (nat * nat)%type.
Definition adv2 (sc sa : nat) (p : ptr2) : ptr2 := (fst p + sc, snd p + sa).
Definition ptr3 := (nat * nat * nat)%type.
Definition adv3 (sc sa sb : nat) (p : ptr3) : ptr3 :=
  (fst (fst p) + sc, snd (fst p) + sa, snd p + sb).

(** ** tensor/algorithms.hpp *)

(** [*c = *a]. *)
Definition cell_copy (f : V -> V) (A : list V) (p : ptr2) (C : list V) : res (list V) :=
  let* x := rdn A (snd p) in wrn C (fst p) (f x).

(** The recursive lambda of copy: algorithms.hpp:59-72, and of transform: algorithms.hpp:114-123
    ([f] is the identity for copy, the unary operation for transform). *)
Fixpoint copy_rec (f : V -> V) (n wc wa : list nat) (A : list V) (r : nat) (p : ptr2) (C : list V)
  {struct r} : res (list V) :=
  let* m := rdn n r in
  let* sc := rdn wc r in
  let* sa := rdn wa r in
  match r with
  | S r' => loop32 m (adv2 sc sa) (copy_rec f n wc wa A r') p C
  | 0 => loop32 m (adv2 sc sa) (cell_copy f A) p C
  end.

(** copy: algorithms.hpp:36-75; transform: algorithms.hpp:92-127.  The null-pointer tests have no
    counterpart here (buffers are never null). *)
Definition copy (p : nat) (n : list nat) (C : list V) (wc : list nat) (A : list V) (wa : list nat)
  : res (list V) :=
  match p with 0 => Ok C | S r => copy_rec (fun x => x) n wc wa A r (0, 0) C end.
Definition transform (p : nat) (n : list nat) (C : list V) (wc : list nat) (A : list V)
  (wa : list nat) (op : V -> V) : res (list V) :=
  match p with 0 => Ok C | S r => copy_rec op n wc wa A r (0, 0) C end.

(** accumulate: algorithms.hpp:141-172 ([op k x = k + x]) and 186-221 (binary operation). *)
Definition cell_acc (op : V -> V -> V) (A : list V) (a : nat) (k : V) : res V :=
  let* x := rdn A a in Ok (op k x).
Fixpoint accumulate_rec (op : V -> V -> V) (n w : list nat) (A : list V) (r : nat) (a : nat) (k : V)
  {struct r} : res V :=
  let* m := rdn n r in
  let* s := rdn w r in
  match r with
  | S r' => loop32 m (fun a => a + s) (accumulate_rec op n w A r') a k
  | 0 => loop32 m (fun a => a + s) (cell_acc op A) a k
  end.
Definition accumulate (p : nat) (n : list nat) (A : list V) (w : list nat) (k : V)
  (op : V -> V -> V) : res V :=
  match p with 0 => Ok k | S r => accumulate_rec op n w A r 0 k end.

(** trans: algorithms.hpp:237-282; [f] is the identity for the generic overload and std::conj for
    the overload on non-const std::complex pointers (298-340).  [pi] is one-based; reading
    [wc[pi[r]-1]] with [pi[r] = 0] is out of bounds. *)
Definition rd1 (w : list nat) (i : nat) : res nat :=        (* w[i-1], i unsigned *)
  match i with 0 => UB | S k => rdn w k end.
Fixpoint trans_rec (f : V -> V) (na pi wc wa : list nat) (A : list V) (r : nat) (p : ptr2)
  (C : list V) {struct r} : res (list V) :=
  let* m := rdn na r in
  let* t := rdn pi r in
  let* sc := rd1 wc t in
  let* sa := rdn wa r in
  match r with
  | S r' => loop32 m (adv2 sc sa) (trans_rec f na pi wc wa A r') p C
  | 0 => loop32 m (adv2 sc sa) (cell_copy f A) p C
  end.
Definition trans (f : V -> V) (p : nat) (na pi : list nat) (C : list V) (wc : list nat)
  (A : list V) (wa : list nat) : res (list V) :=
  if p <? 2 then Ok C else trans_rec f na pi wc wa A (p - 1) (0, 0) C.

(** ** tensor/multiplication.hpp, detail::recursive *)
Variable O : tops.

(** [*c += *a * *b]. *)
Definition cell_fma (A B : list V) (p : ptr3) (C : list V) : res (list V) :=
  let* x := rdn A (snd (fst p)) in
  let* y := rdn B (snd p) in
  let* z := rdn C (fst (fst p)) in
  wrn C (fst (fst p)) (tadd O z (tmul O x y)).
(** [*c = *a * *b]. *)
Definition cell_mul (A B : list V) (p : ptr3) (C : list V) : res (list V) :=
  let* x := rdn A (snd (fst p)) in
  let* y := rdn B (snd p) in
  wrn C (fst (fst p)) (tmul O x y).

(** recursive::ttt with permutation tuples: multiplication.hpp:49-84.  [fuel] bounds the recursion
    depth (the call below gives r+s+q, which suffices; running out would be UB). *)
Fixpoint ttt_perm (fuel : nat) (k r s q : nat) (phia phib nc wc : list nat)
  (A : list V) (na wa : list nat) (B : list V) (nb wb : list nat) (p : ptr3) (C : list V)
  : res (list V) :=
  match fuel with
  | 0 => UB
  | S fu =>
    let next := ttt_perm fu (k + 1) r s q phia phib nc wc A na wa B nb wb in
    if k <? r then
      let* m := rdn nc k in let* f := rdn phia k in let* sa := rd1 wa f in let* sc := rdn wc k in
      sloop m (adv3 sc sa 0) next p C
    else if k <? r + s then
      let* m := rdn nc k in let* f := rdn phib (k - r) in let* sb := rd1 wb f in
      let* sc := rdn wc k in
      sloop m (adv3 sc 0 sb) next p C
    else
      let* fa := rdn phia (k - s) in let* fb := rdn phib (k - r) in
      let* m := rd1 na fa in let* sa := rd1 wa fa in let* sb := rd1 wb fb in
      if k <? r + s + q - 1
      then sloop m (adv3 0 sa sb) next p C
      else sloop m (adv3 0 sa sb) (cell_fma A B) p C
  end.

(** recursive::ttt without permutation tuples: multiplication.hpp:113-146. *)
Fixpoint ttt_id (fuel : nat) (k r s q : nat) (nc wc : list nat)
  (A : list V) (na wa : list nat) (B : list V) (nb wb : list nat) (p : ptr3) (C : list V)
  : res (list V) :=
  match fuel with
  | 0 => UB
  | S fu =>
    let next := ttt_id fu (k + 1) r s q nc wc A na wa B nb wb in
    if k <? r then
      let* m := rdn nc k in let* sa := rdn wa k in let* sc := rdn wc k in
      sloop m (adv3 sc sa 0) next p C
    else if k <? r + s then
      let* m := rdn nc k in let* sb := rdn wb (k - r) in let* sc := rdn wc k in
      sloop m (adv3 sc 0 sb) next p C
    else
      let* m := rdn na (k - s) in let* sa := rdn wa (k - s) in let* sb := rdn wb (k - r) in
      if k <? r + s + q - 1
      then sloop m (adv3 0 sa sb) next p C
      else sloop m (adv3 0 sa sb) (cell_fma A B) p C
  end.

(** recursive::ttm, mode m > 0: multiplication.hpp:166-197. *)
Definition ttm_leaf (m : nat) (nc wc : list nat) (A : list V) (wa : list nat)
  (B : list V) (nb wb : list nat) (p : ptr3) (C : list V) : res (list V) :=
  let* n0 := rdn nc 0 in let* sc0 := rdn wc 0 in let* sa0 := rdn wa 0 in
  let* nm := rdn nc m in let* scm := rdn wc m in let* sb0 := rdn wb 0 in
  let* n1 := rdn nb 1 in let* sam := rdn wa m in let* sb1 := rdn wb 1 in
  sloop n0 (adv3 sc0 sa0 0)
    (fun p => sloop nm (adv3 scm 0 sb0)
       (fun p => sloop n1 (adv3 0 sam sb1) (cell_fma A B) p) p) p C.
Fixpoint ttm_rec (m r : nat) (nc wc : list nat) (A : list V) (na wa : list nat)
  (B : list V) (nb wb : list nat) (p : ptr3) (C : list V) {struct r} : res (list V) :=
  if r =? m then
    match r with
    | 0 => UB                                               (* r - 1 wraps *)
    | S r' => ttm_rec m r' nc wc A na wa B nb wb p C
    end
  else
    match r with
    | 0 => ttm_leaf m nc wc A wa B nb wb p C
    | S r' =>
        let* n := rdn na r in let* sc := rdn wc r in let* sa := rdn wa r in
        sloop n (adv3 sc sa 0) (ttm_rec m r' nc wc A na wa B nb wb) p C
    end.

(** recursive::ttm0, mode 0: multiplication.hpp:215-244 (the innermost loop has a 32-bit
    counter). *)
Definition ttm0_leaf (nc wc : list nat) (A : list V) (wa : list nat)
  (B : list V) (nb wb : list nat) (p : ptr3) (C : list V) : res (list V) :=
  let* n1 := rdn nc 1 in let* sc1 := rdn wc 1 in let* sa1 := rdn wa 1 in
  let* n0 := rdn nc 0 in let* sc0 := rdn wc 0 in let* sb0 := rdn wb 0 in
  let* n2 := rdn nb 1 in let* sa0 := rdn wa 0 in let* sb1 := rdn wb 1 in
  sloop n1 (adv3 sc1 sa1 0)
    (fun p => sloop n0 (adv3 sc0 0 sb0)
       (fun p => loop32 n2 (adv3 0 sa0 sb1) (cell_fma A B) p) p) p C.
Fixpoint ttm0_rec (r : nat) (nc wc : list nat) (A : list V) (na wa : list nat)
  (B : list V) (nb wb : list nat) (p : ptr3) (C : list V) {struct r} : res (list V) :=
  match r with
  | S (S _ as r') =>
      let* n := rdn na r in let* sc := rdn wc r in let* sa := rdn wa r in
      sloop n (adv3 sc sa 0) (ttm0_rec r' nc wc A na wa B nb wb) p C
  | _ => ttm0_leaf nc wc A wa B nb wb p C
  end.

(** recursive::ttv, mode m > 0: multiplication.hpp:269-295.  [b] advances by one element. *)
Definition ttv_leaf (m : nat) (wc : list nat) (A : list V) (na wa : list nat) (B : list V)
  (p : ptr3) (C : list V) : res (list V) :=
  let* n0 := rdn na 0 in let* sc0 := rdn wc 0 in let* sa0 := rdn wa 0 in
  let* nm := rdn na m in let* sam := rdn wa m in
  loop32 n0 (adv3 sc0 sa0 0)
    (fun p => loop32 nm (adv3 0 sam 1) (cell_fma A B) p) p C.
Fixpoint ttv_rec (m r q : nat) (wc : list nat) (A : list V) (na wa : list nat) (B : list V)
  (p : ptr3) (C : list V) {struct r} : res (list V) :=
  if r =? m then
    match r with
    | 0 => UB
    | S r' => ttv_rec m r' q wc A na wa B p C
    end
  else
    match r with
    | 0 => ttv_leaf m wc A na wa B p C
    | S r' =>
        let* n := rdn na r in let* sc := rdn wc q in let* sa := rdn wa r in
        loop32 n (adv3 sc sa 0) (ttv_rec m r' (q - 1) wc A na wa B) p C
    end.

(** recursive::ttv0, mode 0: multiplication.hpp:313-336. *)
Definition ttv0_leaf (wc : list nat) (A : list V) (na wa : list nat) (B : list V)
  (p : ptr3) (C : list V) : res (list V) :=
  let* n1 := rdn na 1 in let* sc0 := rdn wc 0 in let* sa1 := rdn wa 1 in
  let* n0 := rdn na 0 in let* sa0 := rdn wa 0 in
  loop32 n1 (adv3 sc0 sa1 0)
    (fun p => loop32 n0 (adv3 0 sa0 1) (cell_fma A B) p) p C.
Fixpoint ttv0_rec (r : nat) (wc : list nat) (A : list V) (na wa : list nat) (B : list V)
  (p : ptr3) (C : list V) {struct r} : res (list V) :=
  match r with
  | S (S _ as r') =>
      let* n := rdn na r in let* sc := rdn wc (r - 1) in let* sa := rdn wa r in
      loop32 n (adv3 sc sa 0) (ttv0_rec r' wc A na wa B) p C
  | _ => ttv0_leaf wc A na wa B p C
  end.

(** recursive::mtv: multiplication.hpp:353-371. *)
Definition mtv (m : nat) (wc : list nat) (A : list V) (na wa : list nat) (B : list V)
  (p : ptr3) (C : list V) : res (list V) :=
  let o := if m =? 0 then 1 else 0 in
  let* no := rdn na o in let* sco := rdn wc o in let* sao := rdn wa o in
  let* nm := rdn na m in let* sam := rdn wa m in
  loop32 no (adv3 sco sao 0)
    (fun p => loop32 nm (adv3 0 sam 1) (cell_fma A B) p) p C.

(** recursive::mtm: multiplication.hpp:389-414. *)
Definition mtm (nc wc : list nat) (A : list V) (na wa : list nat) (B : list V) (wb : list nat)
  (p : ptr3) (C : list V) : res (list V) :=
  let* n1 := rdn nc 1 in let* sc1 := rdn wc 1 in let* sb1 := rdn wb 1 in
  let* nk := rdn na 1 in let* sa1 := rdn wa 1 in let* sb0 := rdn wb 0 in
  let* ni := rdn na 0 in let* sa0 := rdn wa 0 in let* sc0 := rdn wc 0 in
  loop32 n1 (adv3 sc1 0 sb1)
    (fun p => loop32 nk (adv3 0 sa1 sb0)
       (fun p => loop32 ni (adv3 sc0 sa0 0) (cell_fma A B) p) p) p C.

(** recursive::inner: multiplication.hpp:431-448. *)
Definition cell_dot (A B : list V) (p : ptr2) (v : V) : res V :=
  let* x := rdn A (fst p) in let* y := rdn B (snd p) in Ok (tadd O v (tmul O x y)).
Fixpoint inner_rec (n : list nat) (A : list V) (wa : list nat) (B : list V) (wb : list nat)
  (r : nat) (p : ptr2) (v : V) {struct r} : res V :=
  let* m := rdn n r in let* sa := rdn wa r in let* sb := rdn wb r in
  match r with
  | 0 => loop32 m (adv2 sa sb) (cell_dot A B) p v
  | S r' => loop32 m (adv2 sa sb) (inner_rec n A wa B wb r') p v
  end.

(** recursive::outer_2x2: multiplication.hpp:451-477 ([ia0] has type SizeType). *)
Definition outer_2x2 (pa : nat) (wc : list nat) (A : list V) (na wa : list nat)
  (B : list V) (nb wb : list nat) (p : ptr3) (C : list V) : res (list V) :=
  let* nb1 := rdn nb 1 in let* sb1 := rdn wb 1 in let* scp1 := rdn wc (pa + 1) in
  let* nb0 := rdn nb 0 in let* sb0 := rdn wb 0 in let* scp := rdn wc pa in
  let* na1 := rdn na 1 in let* sa1 := rdn wa 1 in let* sc1 := rdn wc 1 in
  let* na0 := rdn na 0 in let* sa0 := rdn wa 0 in let* sc0 := rdn wc 0 in
  loop32 nb1 (adv3 scp1 0 sb1)
    (fun p => loop32 nb0 (adv3 scp 0 sb0)
       (fun p => loop32 na1 (adv3 sc1 sa1 0)
          (fun p => sloop na0 (adv3 sc0 sa0 0) (cell_mul A B) p) p) p) p C.

(** recursive::outer: multiplication.hpp:503-523. *)
Fixpoint outer_a (pa ra : nat) (wc : list nat) (A : list V) (na wa : list nat)
  (B : list V) (nb wb : list nat) (p : ptr3) (C : list V) {struct ra} : res (list V) :=
  match ra with
  | S (S _ as ra') =>
      let* n := rdn na ra in let* sa := rdn wa ra in let* sc := rdn wc ra in
      loop32 n (adv3 sc sa 0) (outer_a pa ra' wc A na wa B nb wb) p C
  | _ => outer_2x2 pa wc A na wa B nb wb p C
  end.
Fixpoint outer_b (pa rc ra rb : nat) (wc : list nat) (A : list V) (na wa : list nat)
  (B : list V) (nb wb : list nat) (p : ptr3) (C : list V) {struct rb} : res (list V) :=
  match rb with
  | S (S _ as rb') =>
      let* n := rdn nb rb in let* sb := rdn wb rb in let* sc := rdn wc rc in
      loop32 n (adv3 sc 0 sb) (outer_b pa (rc - 1) ra rb' wc A na wa B nb wb) p C
  | _ => outer_a pa ra wc A na wa B nb wb p C
  end.

(** recursive::outer with permutation tuples: multiplication.hpp:552-580 (the innermost loop has a
    32-bit counter). *)
Fixpoint outer_perm (fuel : nat) (k r s : nat) (phia phib nc wc : list nat)
  (A : list V) (wa : list nat) (B : list V) (wb : list nat) (p : ptr3) (C : list V)
  : res (list V) :=
  match fuel with
  | 0 => UB
  | S fu =>
    let next := outer_perm fu (k + 1) r s phia phib nc wc A wa B wb in
    if k <? r then
      let* m := rdn nc k in let* f := rdn phia k in let* sa := rd1 wa f in let* sc := rdn wc k in
      sloop m (adv3 sc sa 0) next p C
    else
      let* m := rdn nc k in let* f := rdn phib (k - r) in let* sb := rd1 wb f in
      let* sc := rdn wc k in
      if k <? r + s - 1
      then sloop m (adv3 sc 0 sb) next p C
      else loop32 m (adv3 sc 0 sb) (cell_mul A B) p C
  end.

(** ** tensor/multiplication.hpp, the checked entry points *)

(** [for (i = a; i < b; ++ i) if (na[i] != nc[i + d]) throw length_error]; the comparison of two
    extents at given positions. *)
Definition same_extent (xa xc : res nat) : res unit :=
  let* x := xa in let* y := xc in if x =? y then Ok tt else Throw std_length_error.
Fixpoint check_all (l : list (res nat * res nat)) : res unit :=
  match l with [] => Ok tt | (x, y) :: t => same_extent x y ;; check_all t end.

(** ttv: multiplication.hpp:620-675. *)
Definition ttv (m p : nat) (C : list V) (nc wc : list nat) (A : list V) (na wa : list nat)
  (B : list V) (nb wb : list nat) : res (list V) :=
  if m =? 0 then Throw std_length_error
  else if p <? m then Throw std_length_error
  else if p =? 0 then Throw std_length_error
  else
    check_all (map (fun i => (rdn na i, rdn nc i)) (seq 0 (m - 1))) ;;
    check_all (map (fun i => (rdn na i, rdn nc (i - 1))) (seq m (p - m))) ;;
    let* b0 := rdn nb 0 in let* b1 := rdn nb 1 in
    same_extent (rdn na (m - 1)) (Ok (Nat.max b0 b1)) ;;
    if negb (m =? 1) && (2 <? p) then ttv_rec (m - 1) (p - 1) (p - 2) wc A na wa B (0, 0, 0) C
    else if (m =? 1) && (2 <? p) then ttv0_rec (p - 1) wc A na wa B (0, 0, 0) C
    else if p =? 2 then mtv (m - 1) wc A na wa B (0, 0, 0) C
    else let* v := inner_rec na A wa B wb 0 (0, 0) (tz O) in wrn C 0 v.

(** ttm: multiplication.hpp:699-751. *)
Definition ttm (m p : nat) (C : list V) (nc wc : list nat) (A : list V) (na wa : list nat)
  (B : list V) (nb wb : list nat) : res (list V) :=
  if m =? 0 then Throw std_length_error
  else if p <? m then Throw std_length_error
  else if p =? 0 then Throw std_length_error
  else
    check_all (map (fun i => (rdn na i, rdn nc i)) (seq 0 (m - 1))) ;;
    check_all (map (fun i => (rdn na i, rdn nc i)) (seq m (p - m))) ;;
    same_extent (rdn na (m - 1)) (rdn nb 1) ;;
    same_extent (rdn nc (m - 1)) (rdn nb 0) ;;
    if negb (m =? 1) then ttm_rec (m - 1) (p - 1) nc wc A na wa B nb wb (0, 0, 0) C
    else ttm0_rec (p - 1) nc wc A na wa B nb wb (0, 0, 0) C.

(** size_t subtraction p - q, wrapping when q > p: the loop bounds r and s of ttt then are of the
    order of 2^64. *)
Definition wsub (a b : nat) : nat := N.to_nat (subw (N.of_nat a) (N.of_nat b)).

(** ttt with permutation tuples: multiplication.hpp:776-821. *)
Definition ttt (pa pb q : nat) (phia phib : list nat) (C : list V) (nc wc : list nat)
  (A : list V) (na wa : list nat) (B : list V) (nb wb : list nat) : res (list V) :=
  if (pa =? 0) || (pb =? 0) then Throw std_length_error
  else if (pa <? q) && (pb <? q) then Throw std_length_error
  else
    let r := wsub pa q in
    let s := wsub pb q in
    check_all (map (fun i => (bind (rdn phia i) (rd1 na), rdn nc i)) (seq 0 r)) ;;
    check_all (map (fun i => (bind (rdn phib i) (rd1 nb), rdn nc (r + i))) (seq 0 s)) ;;
    check_all (map (fun i => (bind (rdn phib (s + i)) (rd1 nb), bind (rdn phia (r + i)) (rd1 na)))
                 (seq 0 q)) ;;
    if q =? 0 then outer_perm (r + s) 0 r s phia phib nc wc A wa B wb (0, 0, 0) C
    else ttt_perm (r + s + q) 0 r s q phia phib nc wc A na wa B nb wb (0, 0, 0) C.

(** ttt without permutation tuples: multiplication.hpp:849-901. *)
Definition ttt_noperm (pa pb q : nat) (C : list V) (nc wc : list nat)
  (A : list V) (na wa : list nat) (B : list V) (nb wb : list nat) : res (list V) :=
  if (pa =? 0) || (pb =? 0) then Throw std_length_error
  else if (pa <? q) && (pb <? q) then Throw std_length_error
  else
    let r := wsub pa q in
    let s := wsub pb q in
    check_all (map (fun i => (rdn na i, rdn nc i)) (seq 0 r)) ;;
    check_all (map (fun i => (rdn nb i, rdn nc (r + i))) (seq 0 s)) ;;
    check_all (map (fun i => (rdn nb (s + i), rdn na (r + i))) (seq 0 q)) ;;
    if q =? 0 then outer_b pa (r + s - 1) (pa - 1) (pb - 1) wc A na wa B nb wb (0, 0, 0) C
    else if (r =? 0) && (s =? 0)
    then let* v := inner_rec na A wa B wb (q - 1) (0, 0) (tz O) in wrn C 0 v
    else ttt_id (r + s + q) 0 r s q nc wc A na wa B nb wb (0, 0, 0) C.

(** inner: multiplication.hpp:919-936; outer: multiplication.hpp:958-978. *)
Definition inner (p : nat) (n : list nat) (A : list V) (wa : list nat) (B : list V) (wb : list nat)
  (v : V) : res V :=
  if p <? 2 then Throw std_length_error else inner_rec n A wa B wb (p - 1) (0, 0) v.
Definition outer (C : list V) (pc : nat) (wc : list nat) (A : list V) (pa : nat) (na wa : list nat)
  (B : list V) (pb : nat) (nb wb : list nat) : res (list V) :=
  if (pa <? 2) || (pb <? 2) then Throw std_length_error
  else if negb (pa + pb =? pc) then Throw std_length_error
  else outer_b pa (pc - 1) (pa - 1) (pb - 1) wc A na wa B nb wb (0, 0, 0) C.
End Tensor.
Arguments tops V : clear implicits.

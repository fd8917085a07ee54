(** PHistSpec.v -- what a user expects of two matrices of a structured type: two tables of values for the stored positions
    (some unspecified: None), through which every position is seen. *)
From Verif Require Import Base LayoutModel PackedModel StorageModel DVecSpec DMatModel PHistModel.
Open Scope nat_scope.
(** what a position shows: a stored element, possibly transformed, or a constant *)
Inductive seen (T : Type) := Cell (i j : nat) (g : T -> T) | Const (x : T).
Arguments Cell {T}. Arguments Const {T}.
(** A kind of matrix: which positions are stored; what each position shows; which stored element, if any, m (i, j) = x,
    insert_element and erase_element change; the matrices are square; resize can preserve; an expression that reads the
    matrix transposed can be assigned to it without a temporary. *)
Record kind (T B : Type) := Kind {
  own : B -> nat -> nat -> bool;
  look : B -> nat -> nat -> seen T;
  sets : B -> nat -> nat -> option (nat * nat * (T -> T));
  inserts : B -> nat -> nat -> option (nat * nat * (T -> T));
  erases : B -> nat -> nat -> option (nat * nat);
  square : bool;
  keeps : bool;
  still : bool
}.
Arguments Kind {T B}. Arguments own {T B}. Arguments look {T B}. Arguments sets {T B}. Arguments inserts {T B}. Arguments erases {T B}.
Arguments square {T B}. Arguments keeps {T B}. Arguments still {T B}.

(** the triangular kinds: TRI = lower, unit_lower, strict_lower, upper, unit_upper, strict_upper *)
Definition in_tri (t : tri) (i j : nat) : bool :=
  match t with Lo KLower => j <=? i | Lo _ => j <? i | Up KLower => i <=? j | Up _ => i <? j end.
Definition has_unit_diagonal (t : tri) : bool := match t with Lo KUnitLower | Up KUnitLower => true | _ => false end.
Definition tri_kind {T} (tzero tone : T) (t : tri) : kind T unit :=
  let w (_ : unit) i j := if in_tri t i j then Some (i, j, fun x : T => x) else None in
  Kind (fun _ => in_tri t)
    (fun _ i j => if in_tri t i j then Cell i j (fun x => x) else if has_unit_diagonal t && (i =? j) then Const tone else Const tzero)
    w w (fun _ i j => if in_tri t i j then Some (i, j) else None) false true true.
(** symmetric: the lower (upper) triangle is stored, the other one mirrors it *)
Definition sym_kind {T} (t : tri) : kind T unit :=
  let c i j := if in_tri t i j then (i, j) else (j, i) in
  let w (_ : unit) i j := Some (c i j, fun x : T => x) in
  Kind (fun _ => in_tri t) (fun _ i j => Cell (fst (c i j)) (snd (c i j)) (fun x => x)) w w (fun _ i j => Some (c i j)) true true true.
(** hermitian: the other triangle shows conjugates; only insert_element may write there *)
Definition her_kind {T} (cj : T -> T) (t : tri) : kind T unit :=
  Kind (fun _ => in_tri t) (fun _ i j => if in_tri t i j then Cell i j (fun x => x) else Cell j i cj)
    (fun _ i j => if in_tri t i j then Some (i, j, fun x => x) else None)
    (fun _ i j => if in_tri t i j then Some (i, j, fun x => x) else Some (j, i, cj))
    (fun _ i j => if in_tri t i j then Some (i, j) else None) true true true.
(** banded with (lower, upper) diagonals below and above the main one *)
Definition in_band' (b : nat * nat) (i j : nat) : bool := (j <=? i + snd b) && (i <=? j + fst b).
Definition band_kind {T} (tzero : T) : kind T (nat * nat) :=
  let w b i j := if in_band' b i j then Some (i, j, fun x : T => x) else None in
  Kind in_band' (fun b i j => if in_band' b i j then Cell i j (fun x => x) else Const tzero)
    w w (fun b i j => if in_band' b i j then Some (i, j) else None) false false false.

Record stable (T B : Type) := STab { srows : nat; scols : nat; spart : B; scell : nat -> nat -> option T }.
Arguments STab {T B}. Arguments srows {T B}. Arguments scols {T B}. Arguments spart {T B}. Arguments scell {T B}.

Section Spec.
Context {T B : Type}.
Variable K : kind T B.
Implicit Types (s : stable T B * stable T B) (e : mexp T) (t : stable T B).
Definition shas t (i j : nat) : bool := (i <? srows t) && (j <? scols t).
(** the element at (i, j) *)
Definition view t (i j : nat) : option T := match look K (spart t) i j with Cell a c g => lift1 g (scell t a c) | Const x => Some x end.
Fixpoint eshape s e : option (nat * nat) :=
  match e with
  | YMat w => Some (srows (sel w s), scols (sel w s))
  | YLit n1 n2 _ => Some (n1, n2)
  | YUn _ a => eshape s a
  | YBin _ a b => match eshape s a, eshape s b with
                  | Some (n1, n2), Some (k1, k2) => if (n1 =? k1) && (n2 =? k2) then Some (n1, n2) else None | _, _ => None end
  | YTrans a => match eshape s a with Some (n1, n2) => Some (n2, n1) | None => None end
  end.
Fixpoint evalue s e (i j : nat) : option T :=
  match e with
  | YMat w => view (sel w s) i j
  | YLit _ _ f => Some (f i j)
  | YUn f a => lift1 f (evalue s a i j)
  | YBin f a b => lift2 f (evalue s a i j) (evalue s b i j)
  | YTrans a => evalue s a j i
  end.
Definition with_cells t (f : nat -> nat -> option T) : stable T B := STab (srows t) (scols t) (spart t) f.
Definition sunset (n1 n2 : nat) (b : B) : stable T B := STab n1 n2 b (fun _ _ => None).
Definition supd (i j : nat) (x : T) t : stable T B := with_cells t (fun a c => if (a =? i) && (c =? j) then Some x else scell t a c).
Definition pafter (tzero : T) s (o : ph_op T B) : stable T B * stable T B :=
  match o with
  | PSet w i j x => match sets K (spart (sel w s)) i j with Some (a, c, g) => put w (supd a c (g x) (sel w s)) s | None => s end
  | PInsert w i j x => match inserts K (spart (sel w s)) i j with Some (a, c, g) => put w (supd a c (g x) (sel w s)) s | None => s end
  | PErase w i j => match erases K (spart (sel w s)) i j with Some (a, c) => put w (supd a c tzero (sel w s)) s | None => s end
  | PClear w => put w (with_cells (sel w s) (fun _ _ => Some tzero)) s
  | PResize w n1 n2 b true => put w (STab n1 n2 b (fun i j => if shas (sel w s) i j then scell (sel w s) i j else None)) s
  | PResize w n1 n2 b false => put w (sunset n1 n2 b) s
  | PSame w => put w (sel (other w) s) s
  | PSelf _ => s
  | PExpr w e => match eshape s e with Some (n1, n2) => put w (STab n1 n2 (spart (sel w s)) (evalue s e)) s | None => s end
  | PNoalias w e => put w (with_cells (sel w s) (evalue s e)) s
  | PComp w f e | PNoaliasComp w f e => put w (with_cells (sel w s) (fun i j => lift2 f (scell (sel w s) i j) (evalue s e i j))) s
  | PScalar w f => put w (with_cells (sel w s) (fun i j => lift1 f (scell (sel w s) i j))) s
  | PSwap => (snd s, fst s)
  end.
(** in checked builds the call throws one of these; []: it must not throw *)
Definition pmust_throw s (o : ph_op T B) : list exn :=
  let sq n1 n2 := if square K && negb (n1 =? n2) then [bad_argument] else [] in
  let at' {X} w i j (o : option X) := if shas (sel w s) i j then match o with Some _ => [] | None => [bad_index] end else [bad_index] in
  let sized bad w e := match eshape s e with
                       | Some (n1, n2) => if (n1 =? srows (sel w s)) && (n2 =? scols (sel w s)) then [] else [bad]
                       | None => [bad; bad_argument] end in
  match o with
  | PSet w i j _ => at' w i j (sets K (spart (sel w s)) i j)
  | PInsert w i j _ => at' w i j (inserts K (spart (sel w s)) i j)
  | PErase w i j => at' w i j (erases K (spart (sel w s)) i j)
  | PResize _ n1 n2 _ _ => sq n1 n2
  | PExpr _ e => match eshape s e with Some (n1, n2) => sq n1 n2 | None => [bad_argument] end
  | PComp w _ e => sized bad_argument w e
  | PNoalias w e | PNoaliasComp w _ e => sized bad_size w e
  | _ => []
  end.
(** [e] does not read matrix [w] transposed; [t]: an odd number of transpositions applies to e *)
Fixpoint keeps_place (w : which) (t : bool) e : bool :=
  match e with
  | YMat v => negb (t && match w, v with L, L | R, R => true | _, _ => false end)
  | YLit _ _ _ => true
  | YUn _ a => keeps_place w t a
  | YBin _ a b => keeps_place w t a && keeps_place w t b
  | YTrans a => keeps_place w (negb t) a
  end.
Definition pno_alias (o : ph_op T B) : bool :=
  match o with PNoalias w e | PNoaliasComp w _ e => still K || keeps_place w false e | _ => true end.
(** the extents fit; resize preserves only where it can *)
Definition proom (fits : nat -> nat -> B -> bool) s (o : ph_op T B) : bool :=
  match o with
  | PResize _ n1 n2 b k => fits n1 n2 b && (negb k || keeps K)
  | PExpr w e => match eshape s e with Some (n1, n2) => fits n1 n2 (spart (sel w s)) | None => true end
  | _ => true
  end.
Fixpoint plegal (fits : nat -> nat -> B -> bool) (tzero : T) s (ops : list (ph_op T B)) : Prop :=
  match ops with
  | [] => True
  | o :: ops => pmust_throw s o = [] /\ pno_alias o = true /\ proom fits s o = true /\ plegal fits tzero (pafter tzero s o) ops
  end.
(** matrix [m] shows the table [t] *)
Definition pshown {S} (A : pops S T B) (chk : bool) (t : stable T B) (m : S) : Prop :=
  p_rows A m = srows t /\ p_cols A m = scols t /\ p_part A m = spart t /\
  exists f : nat -> nat -> T,
    (forall i j x, shas t i j = true -> own K (spart t) i j = true -> scell t i j = Some x -> f i j = x) /\
    (forall i j, shas t i j = true -> p_get A m i j = Ok (match look K (spart t) i j with Cell a c g => g (f a c) | Const x => x end)) /\
    (forall i j, chk = true -> shas t i j = false -> p_get A m i j = Throw bad_index).
End Spec.
(** extents allowed here: orders below 2^32; unit and strict kinds not empty and not longer than wide (lower), wider than long
    (upper), as C03 and C64 require *)
Definition below (n : nat) : bool := (N.of_nat n <? 2 ^ 32)%N.
Definition tri_fits (t : tri) (n1 n2 : nat) (_ : unit) : bool :=
  below n1 && below n2 && match t with
    | Lo KLower | Up KLower => true | Lo _ => (0 <? n1) && (n1 <=? n2) | Up _ => (0 <? n2) && (n2 <=? n1) end.
Definition square_fits (n1 n2 : nat) (_ : unit) : bool := below n1 && (n1 =? n2).
Definition band_fits (n1 n2 : nat) (b : nat * nat) : bool :=
  let w := (N.of_nat (fst b) + 1 + N.of_nat (snd b))%N in
  (N.of_nat n1 + N.of_nat n2 + w <? W)%N && (N.max (N.of_nat n1) (N.of_nat n2) * w <? W)%N.

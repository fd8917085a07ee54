(** VoVModel.v -- vector_of_vector<T, L, unbounded_array<unbounded_array<T>>>, the dense matrix kept as an array of
    lines (matrix.hpp:2378-2590).  Sizes are unbounded naturals (the only size arithmetic is size_M + 1).  Copying a
    line copies its size and elements (C08).  Fresh memory holds whatever [junk] says. *)
From Verif Require Import Base LayoutModel StorageModel CMatModel.
Open Scope nat_scope.

Section VoV.
Context {T : Type}.
Variable tzero : T.
Variable chk : bool.
Variable l : layout.
Variable junk : nat -> T.

(** size1_, size2_, data_: 3439-3441 *)
Record vov := VoV { vo_s1 : nat; vo_s2 : nat; vo_data : uarr (uarr T) }.
(** a default constructed line (unbounded_array has a constructor: storage.hpp:75-82, 172-176) *)
Definition line0 (k : nat) : uarr T := ua_default.
(** vector_of_vector (): 2406-2408 *)
Definition vo_default : vov := VoV 0 0 (ua_new line0 1).
(** resize (size1, size2, preserve): 2451-2464 *)
Definition vo_resize_line (mn : nat) (preserve : bool) (k : nat) (d : uarr (uarr T)) : res (uarr (uarr T)) :=
  let* r := ua_get chk d k in
  let* r := if preserve then ua_resize_init junk r mn tzero else ua_resize junk tzero r mn in
  ua_set chk d k r.
Definition vo_resize (m : vov) (size1 size2 : nat) (preserve : bool) : res vov :=
  let* d := if preserve then ua_resize_init line0 (vo_data m) (majM l size1 size2 + 1) (ua_default)
            else ua_resize line0 (ua_default) (vo_data m) (majM l size1 size2 + 1) in
  let* d := iterM (majM l size1 size2) (vo_resize_line (minm l size1 size2) preserve) d in
  Ok (VoV size1 size2 d).
(** vector_of_vector (size1, size2): 2410-2414 *)
Definition vo_new (size1 size2 : nat) : res vov := vo_resize (VoV size1 size2 (ua_new line0 1)) size1 size2 true.
(** operator () const: 2468-2470; at_element, operator (), insert_element: 2472-2483 *)
Definition vo_get (m : vov) (i j : nat) : res T :=
  let* r := ua_get chk (vo_data m) (majM l i j) in ua_get chk r (minm l i j).
Definition vo_set (m : vov) (i j : nat) (x : T) : res vov :=
  let* r := ua_get chk (vo_data m) (majM l i j) in
  let* r := ua_set chk r (minm l i j) x in
  let* d := ua_set chk (vo_data m) (majM l i j) r in Ok (VoV (vo_s1 m) (vo_s2 m) d).
(** erase_element: 2486-2488 *)
Definition vo_erase (m : vov) (i j : nat) : res vov := vo_set m i j tzero.
(** clear: 2492-2495; std::fill over the whole line *)
Definition vo_clear_line (k : nat) (d : uarr (uarr T)) : res (uarr (uarr T)) :=
  let* r := ua_get chk d k in
  let* x := fillM (ua_size r) (ua_data r) 0 tzero in
  ua_set chk d k (UA (ua_size r) x).
Definition vo_clear (m : vov) : res vov :=
  let* d := iterM (majM l (vo_s1 m) (vo_s2 m)) vo_clear_line (vo_data m) in Ok (VoV (vo_s1 m) (vo_s2 m) d).
(** copy constructor: 2416-2418; operator = (distinct objects): 2499-2504; assign_temporary, swap: 2506-2509, 2580-2586 *)
Definition vo_copy (m : vov) : res vov :=
  let* d := ua_copy line0 (vo_data m) in Ok (VoV (vo_s1 m) (vo_s2 m) d).
Definition vo_assign (m m' : vov) : res vov :=
  let* d := ua_assign line0 (ua_default) (vo_data m) (vo_data m') in Ok (VoV (vo_s1 m') (vo_s2 m') d).
Definition vo_swap (m m' : vov) : vov * vov :=
  let '(d, d') := ua_swap (vo_data m) (vo_data m') in (VoV (vo_s1 m') (vo_s2 m') d, VoV (vo_s1 m) (vo_s2 m) d').
(** matrix_assign<scalar_assign> ( *this, ae): element by element (C46), line by line *)
Definition vo_assign_each (g : nat -> nat -> T) (m : vov) : res vov :=
  iterM (vo_s1 m) (fun i => iterM (vo_s2 m) (fun j m => vo_set m i j (g i j))) m.
(** vector_of_vector (ae): 2421-2427; data_ (n) has n default constructed lines *)
Definition vo_of (s1 s2 : nat) (g : nat -> nat -> T) : res vov :=
  let* d := iterM (majM l s1 s2) (fun k d =>
              let* r := ua_get chk d k in let* r := ua_resize junk tzero r (minm l s1 s2) in ua_set chk d k r)
              (ua_new line0 (majM l s1 s2 + 1)) in
  vo_assign_each g (VoV s1 s2 d).
(** operator = (matrix_container): 2518-2523 *)
Definition vo_assign_container (m : vov) (s1 s2 : nat) (g : nat -> nat -> T) : res vov :=
  let* m := vo_resize m s1 s2 false in vo_assign_each g m.

(** operations on two matrices; [b] selects the one operated on *)
Inductive vo_op :=
| OSet (b : bool) (i j : nat) (x : T)
| OErase (b : bool) (i j : nat)
| OClear (b : bool)
| OResize (b : bool) (s1 s2 : nat) (preserve : bool)
| OAssign (b : bool)                                     (* one = other *)
| OCopy (b : bool)                                       (* one.assign_temporary (copy of other) *)
| OSwap
| OExpr (b : bool) (s1 s2 : nat) (g : nat -> nat -> T)     (* one = expression: 2512-2516 *)
| OCont (b : bool) (s1 s2 : nat) (g : nat -> nat -> T).    (* one = other kind of container *)
Definition one {A} (b : bool) (p : A * A) : A := if b then fst p else snd p.
Definition put {A} (b : bool) (x : A) (p : A * A) : A * A := if b then (x, snd p) else (fst p, x).
Definition vo_on (b : bool) (p : vov * vov) (r : res vov) : res (vov * vov) := let* m := r in Ok (put b m p).
Definition vo_step (p : vov * vov) (o : vo_op) : res (vov * vov) :=
  match o with
  | OSet b i j x => vo_on b p (vo_set (one b p) i j x)
  | OErase b i j => vo_on b p (vo_erase (one b p) i j)
  | OClear b => vo_on b p (vo_clear (one b p))
  | OResize b s1 s2 pr => vo_on b p (vo_resize (one b p) s1 s2 pr)
  | OAssign b => vo_on b p (vo_assign (one b p) (one (negb b) p))
  | OCopy b => let* t := vo_copy (one (negb b) p) in Ok (put b (fst (vo_swap (one b p) t)) p)
  | OSwap => Ok (vo_swap (fst p) (snd p))
  | OExpr b s1 s2 g => let* t := vo_of s1 s2 g in Ok (put b (fst (vo_swap (one b p) t)) p)
  | OCont b s1 s2 g => vo_on b p (vo_assign_container (one b p) s1 s2 g)
  end.
End VoV.
Arguments vov : clear implicits.
Arguments vo_op : clear implicits.

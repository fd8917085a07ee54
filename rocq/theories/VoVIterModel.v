(** VoVIterModel.v -- iterators of vector_of_vector (matrix.hpp:2616-3412).  An iterator1 / iterator2 holds i_, j_ and a
    pointer it_ into one of the lines; iterator1 and const_iterator1 (2) have the same bodies and share one model.
    it_ is a line and an offset; its address is the address of that line's first element, given by [base] (the
    allocator's choice), plus the offset, so pointers into different lines compare as their addresses do.
    Simplifications: forming a pointer outside a line (the code adds column numbers to the null pointer of an empty line)
    is not itself an error; -- of index 0 is UB; += and -= to a negative index are UB. *)
From Verif Require Import Base LayoutModel StorageModel CMatModel DMIterModel VoVModel.
Open Scope nat_scope.

Record viter := VIt { vi_i : nat; vi_j : nat; vi_line : nat; vi_off : nat }.

Section VoVIter.
Context {T : Type}.
Variable chk : bool.
Variable l : layout.
Variable base : nat -> Z.
Implicit Type m : vov T.

(** layout_type::fast_i, fast_j: functional.hpp:1458-1466 (row), 1636-1644 (column) *)
Definition vi_fast (w : dir) : bool :=
  match l, w with RowMajor, D1 => false | RowMajor, D2 => true | ColMajor, D1 => true | ColMajor, D2 => false end.
(** find1, find2: 2616-2646 *)
Definition vi_find m (i j : nat) : res viter :=
  let* r := ua_get chk (vo_data m) (majM l i j) in Ok (VIt i j (majM l i j) (minm l i j)).
Definition vi_idx (w : dir) (it : viter) : nat := match w with D1 => vi_i it | D2 => vi_j it end.
Definition vi_to (w : dir) (x : nat) (it : viter) : nat * nat := match w with D1 => (x, vi_j it) | D2 => (vi_i it, x) end.
Definition vi_refind m (w : dir) (x : nat) (it : viter) : res viter :=
  let '(i, j) := vi_to w x it in vi_find m i j.
(** operator ++: 2676-2684, 2871-2879, 3033-3041, 3228-3236 *)
Definition vi_inc m (w : dir) (it : viter) : res viter :=
  let '(i, j) := vi_to w (vi_idx w it + 1) it in
  if vi_fast w then Ok (VIt i j (vi_line it) (vi_off it + 1)) else vi_find m i j.
(** operator --: 2686-2694, 2881-2889, 3043-3051, 3238-3246 *)
Definition vi_dec m (w : dir) (it : viter) : res viter :=
  match vi_idx w it with
  | 0 => UB
  | S x => let '(i, j) := vi_to w x it in
           if vi_fast w then match vi_off it with 0 => UB | S o => Ok (VIt i j (vi_line it) o) end else vi_find m i j
  end.
(** operator += n, -= n: 2696-2708, 2891-2903, 3053-3065, 3248-3260 *)
Definition vi_add m (w : dir) (it : viter) (n : Z) : res viter :=
  let x := (Z.of_nat (vi_idx w it) + n)%Z in if (x <? 0)%Z then UB else vi_refind m w (Z.to_nat x) it.
Definition vi_sub m (w : dir) (it : viter) (n : Z) : res viter :=
  let x := (Z.of_nat (vi_idx w it) - n)%Z in if (x <? 0)%Z then UB else vi_refind m w (Z.to_nat x) it.
(** operator -: 2710-2714, 2905-2909, 3067-3071, 3262-3266 *)
Definition vi_diff (w : dir) (a b : viter) : res Z :=
  check chk (vi_idx (flip w) a =? vi_idx (flip w) b) bad_index ;; Ok (Z.of_nat (vi_idx w a) - Z.of_nat (vi_idx w b))%Z.
(** operator *: 2718-2722, 2913-2917, 3075-3079, 3270-3274 *)
Definition vi_get m (it : viter) : res T :=
  check chk (vi_i it <? vo_s1 m) bad_index ;; check chk (vi_j it <? vo_s2 m) bad_index ;;
  let* r := rdn (ua_data (vo_data m)) (vi_line it) in rdn (ua_data r) (vi_off it).
Definition vi_put m (it : viter) (x : T) : res (vov T) :=
  check chk (vi_i it <? vo_s1 m) bad_index ;; check chk (vi_j it <? vo_s2 m) bad_index ;;
  let* r := rdn (ua_data (vo_data m)) (vi_line it) in
  let* y := wrn (ua_data r) (vi_off it) x in
  let* d := wrn (ua_data (vo_data m)) (vi_line it) (UA (ua_size r) y) in
  Ok (VoV (vo_s1 m) (vo_s2 m) (UA (ua_size (vo_data m)) d)).
(** operator [] (n): 2724-2726, 2919-2921, 3081-3083, 3276-3278 *)
Definition vi_at m (w : dir) (it : viter) (n : Z) : res T := let* it := vi_add m w it n in vi_get m it.
(** operator =: 2801-2805, 2968-2972, 3158-3162, 3325-3329 -- only it_ is copied *)
Definition vi_assign (a b : viter) : viter := VIt (vi_i a) (vi_j a) (vi_line b) (vi_off b).
(** operator ==, operator <: 2809-2819, 2976-2986, 3166-3176, 3333-3343 *)
Definition vi_addr (it : viter) : Z := (base (vi_line it) + Z.of_nat (vi_off it))%Z.
Definition vi_eq (w : dir) (a b : viter) : res bool :=
  check chk (vi_idx (flip w) a =? vi_idx (flip w) b) bad_index ;; Ok (vi_addr a =? vi_addr b)%Z.
Definition vi_lt (w : dir) (a b : viter) : res bool :=
  check chk (vi_idx (flip w) a =? vi_idx (flip w) b) bad_index ;; Ok (vi_addr a <? vi_addr b)%Z.
(** begin1, end1: 2831-2841, 2998-3004; begin2, end2: 3188-3198, 3355-3361 *)
Definition vi_begin m (w : dir) : res viter := vi_find m 0 0.
Definition vi_end m (w : dir) : res viter := match w with D1 => vi_find m (vo_s1 m) 0 | D2 => vi_find m 0 (vo_s2 m) end.
(** begin (), end () of an iterator: 2733-2751, 2928-2939 (find2 (1, index1 (), ..)), 3090-3108, 3285-3296 (find1 (1, .., index2 ())) *)
Definition vi_dbegin m (w : dir) (it : viter) : res viter := match w with D1 => vi_find m (vi_i it) 0 | D2 => vi_find m 0 (vi_j it) end.
Definition vi_dend m (w : dir) (it : viter) : res viter :=
  match w with D1 => vi_find m (vi_i it) (vo_s2 m) | D2 => vi_find m (vo_s1 m) (vi_j it) end.

(** for (; it != e; step it) body; UB when [fuel] steps do not reach e *)
Fixpoint vi_for {S : Type} (fuel : nat) (w : dir) (step : viter -> res viter) (it e : viter) (body : viter -> S -> res S) (s : S) : res S :=
  let* b := vi_eq w it e in
  if b then Ok s else
  match fuel with
  | O => UB
  | Datatypes.S fuel => let* s := body it s in let* it := step it in vi_for fuel w step it e body s
  end.
Definition vi_len m (w : dir) : nat := match w with D1 => vo_s1 m | D2 => vo_s2 m end.
(** for (it1 = begin1 (); it1 != end1 (); ++ it1) for (it2 = it1.begin (); it2 != it1.end (); ++ it2) body (it2) *)
Definition vi_nested {S : Type} m (w : dir) (body : viter -> S -> res S) (s : S) : res S :=
  let* b := vi_begin m w in let* e := vi_end m w in
  vi_for (vi_len m w) w (vi_inc m w) b e (fun it s =>
    let* b2 := vi_dbegin m w it in let* e2 := vi_dend m w it in
    vi_for (vi_len m (flip w)) (flip w) (vi_inc m (flip w)) b2 e2 body s) s.
(** the same with reverse iterators: detail/iterator.hpp:417-640 *)
Definition vi_rnested {S : Type} m (w : dir) (body : viter -> S -> res S) (s : S) : res S :=
  let* b := vi_begin m w in let* e := vi_end m w in
  vi_for (vi_len m w) w (vi_dec m w) e b (fun it s =>
    let* it := vi_dec m w it in
    let* b2 := vi_dbegin m w it in let* e2 := vi_dend m w it in
    vi_for (vi_len m (flip w)) (flip w) (vi_dec m (flip w)) e2 b2 (fun it2 s => let* it2 := vi_dec m (flip w) it2 in body it2 s) s) s.
Definition vi_note m (it : viter) (s : list (nat * nat * T)) : res (list (nat * nat * T)) :=
  let* x := vi_get m it in Ok (s ++ [((vi_i it, vi_j it), x)]).
Definition vi_visit m (w : dir) : res (list (nat * nat * T)) := vi_nested m w (vi_note m) [].
Definition vi_rvisit m (w : dir) : res (list (nat * nat * T)) := vi_rnested m w (vi_note m) [].
(** the loop bounds are those of the matrix at the start: assigning elements changes neither sizes nor addresses *)
Definition vi_fill m (w : dir) (g : nat -> nat -> T) : res (vov T) :=
  vi_nested m w (fun it m => vi_put m it (g (vi_i it) (vi_j it))) m.
(** for (it = begin; it != end; ++ it) ++ n *)
Definition vi_count m (w : dir) : res nat :=
  let* b := vi_begin m w in let* e := vi_end m w in vi_for (vi_len m w) w (vi_inc m w) b e (fun _ n => Ok (n + 1)) 0.
End VoVIter.

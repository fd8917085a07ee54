(** AssignSpec.v -- well-formed sources and targets, and the laws of the value type used. *)
From Coq Require Import Sorted.
From Verif Require Import Base AssignModel.
Open Scope nat_scope.

(** The positions an iterator pair of category c over a vector of size n visits: in strictly
    increasing order, inside the vector; every position for dense, an interval for packed. *)
Definition visits_ok (c : icat) (n : nat) (l : list nat) : Prop :=
  StronglySorted lt l /\ (forall i, In i l -> i < n) /\
  match c with
  | IDense => l = seq 0 n
  | IPacked => exists a k, l = seq a k
  | ISparse => True
  end.
(** Positions that are not visited hold zero. *)
Definition wf_src {T} (O : vops T) (e : src T) : Prop :=
  visits_ok (s_cat e) (s_n e) (s_its e) /\
  forall i, i < s_n e -> ~ In i (s_its e) -> s_at e i = v0 O.
Definition wf_tgt {T} (O : vops T) (v : tgt T) : Prop :=
  visits_ok (icat_of (t_sc v)) (t_n v) (t_its v) /\
  forall i, i < t_n v -> ~ In i (t_its v) -> t_at v i = v0 O.

(** Laws of the value type (for IEEE floats up to the sign of zero). *)
Record vlaws {T} (O : vops T) : Prop := {
  l_add0 : forall x, vadd O x (v0 O) = x;
  l_sub0 : forall x, vsub O x (v0 O) = x;
  l_mul0 : forall t, vmul O (v0 O) t = v0 O;
  l_0mul : forall t, vmul O t (v0 O) = v0 O;
  l_eqb : forall x y, veqb O x y = true <-> x = y }.

(** A packed target cannot hold nonzero values outside its stored part. *)
Definition fits {T} (O : vops T) (v : tgt T) (e : src T) : Prop :=
  icat_of (t_sc v) = IPacked ->
  forall i, i < s_n e -> ~ In i (t_its v) -> s_at e i = v0 O.

(** v (i) op= e (i) at every index, and nothing else about v changes but the set of stored
    positions. *)
Definition elementwise {T} (O : vops T) (f : afun) (v : tgt T) (y : nat -> T) (v' : tgt T) : Prop :=
  t_n v' = t_n v /\ t_sc v' = t_sc v /\
  forall i, i < t_n v -> t_at v' i = fapply O f (t_at v i) (y i).

(** TMkModel.v -- model of what makes a tensor out of something else: the constructors of a dynamic
    tensor from an expression (a tensor of the other layout is one), from a matrix and from a vector,
    assignment of one value, and the functions norm, real, imag and conj.
    Paths below are relative to /repo/include/boost/numeric/ublas/tensor/. *)
From Verif Require Import Base TensorModel TensorApi.
Open Scope nat_scope.

Section Mk.
Context {V : Type}.
Variable O : tops V.

(** tensor_core (tensor_expression<T, D> const &): tensor/tensor_dynamic.hpp:176-185: the extents are
    those retrieve_extents finds, the buffer is value-initialised and then assigned element by
    element.  [self] is the type of the new tensor, [L] its layout, [order] the order in which the
    iterations of the parallel loop take effect.  A tensor of the other layout is converted by this
    constructor, as an expression that is a single tensor: the constructor written for it (156-163)
    is explicit and does not compile (there is no member container ()). *)
Definition of_expr (self : nat) (L : tlayout) (order : list nat) (x : @texpr V) : res (tensor V) :=
  let e := retrieve self [] (ty_of self x) x in
  let* t := make_tensor L e (tz O) in
  eval self (fun _ v => v) order t x.

(** explicit tensor_core (matrix_type const &): tensor/tensor_dynamic.hpp:188-194.  The matrix has the
    layout of the tensor; [m] is its storage, size1 times size2 cells.  The extents constructor
    (extents/extents_dynamic_size.hpp:75-83) checks the extents. *)
Definition of_matrix (L : tlayout) (size1 size2 : nat) (m : list V) : res (tensor V) :=
  let* e := make_extents [size1; size2] in
  let* w := to_strides L e in
  Ok (Tensor e w m).

(** explicit tensor_core (vector_type const &): tensor/tensor_dynamic.hpp:197-203. *)
Definition of_vector (L : tlayout) (v : list V) : res (tensor V) :=
  let* e := make_extents [length v; 1] in
  let* w := to_strides L e in
  Ok (Tensor e w v).

(** operator= (const_reference v): tensor/tensor_dynamic.hpp:287-291. *)
Definition assign_value (t : tensor V) (v : V) : tensor V :=
  Tensor (t_ext t) (t_str t) (repeat v (length (t_buf t))).

(** norm: function/norm.hpp:45-56.  [rt] is std::sqrt. *)
Definition norm {R} (rt : V -> R) (t : tensor V) : res R :=
  if empty t then Throw std_runtime_error
  else
    let* s := accumulate (length (t_ext t)) (t_ext t) (t_buf t) (t_str t) (tz O)
                (fun l r => tadd O l (tmul O r r)) in
    Ok (rt s).

(** real and imag of an expression of real element type, conj of one of complex element type:
    function/real.hpp:41-44, function/imag.hpp:42-45, function/conj.hpp:41-47: an expression,
    evaluated later.  [f] is std::real, std::imag or std::conj. *)
Definition lazy_fn (f : V -> V) (x : @texpr V) : @texpr V := TUn f x.

(** real and imag of an expression of complex element type, conj of one of real element type:
    function/real.hpp:51-76, function/imag.hpp:53-78, function/conj.hpp:54-76: a new tensor of another
    element type [U] and of the layout of the operands; [u] is U{}.  [std::transform] writes as many
    elements as it reads. *)
Definition eager_fn {U} (f : V -> U) (u : U) (self : nat) (L : tlayout) (order : list nat)
  (x : @texpr V) : res (tensor U) :=
  if match retrieve self [] (ty_of self x) x with [] => true | _ => false end
  then Throw std_runtime_error
  else
    let* a := of_expr self L order x in
    let* c := make_tensor L (t_ext a) u in
    if length (t_buf a) <=? length (t_buf c)
    then Ok (Tensor (t_ext c) (t_str c) (map f (t_buf a) ++ skipn (length (t_buf a)) (t_buf c)))
    else UB.
End Mk.

(** DVecSpec.v -- what a user expects of two dense vectors: two lists of values, some unspecified (None). *)
From Verif Require Import Base SpecialModel SpecialSpec SpecialProps StorageModel StorageSpec DVecModel.
Open Scope nat_scope.
Section Spec.
Context {T : Type}.
Implicit Types (s : contents T * contents T) (e : vexp T).
(** the common size of all vectors in an expression, if there is one *)
Fixpoint size_of s e : option nat :=
  match e with
  | XVec w => Some (length (sel w s))
  | XLit l => Some (length l)
  | XUn _ a => size_of s a
  | XBin _ a b => match size_of s a, size_of s b with Some n, Some m => if n =? m then Some n else None | _, _ => None end
  end.
(** element i of an expression *)
Definition lift1 (f : T -> T) (x : option T) : option T := option_map f x.
Definition lift2 (f : T -> T -> T) (x y : option T) : option T :=
  match x, y with Some x, Some y => Some (f x y) | _, _ => None end.
Definition elem (l : contents T) (i : nat) : option T := nth i l None.
Fixpoint value s e (i : nat) : option T :=
  match e with
  | XVec w => elem (sel w s) i
  | XLit l => nth_error l i
  | XUn f a => lift1 f (value s a i)
  | XBin f a b => lift2 f (value s a i) (value s b i)
  end.
Definition build (n : nat) (g : nat -> option T) : contents T := map g (seq 0 n).
Definition after (tzero : T) s (o : dv_op T) : contents T * contents T :=
  match o with
  | DResize w n true => put w (build n (fun i => if i <? length (sel w s) then elem (sel w s) i else Some tzero)) s
  | DResize w n false => put w (sresize n (sel w s)) s
  | DSet w i x => put w (upd i (Some x) (sel w s)) s
  | DErase w i => put w (upd i (Some tzero) (sel w s)) s
  | DClear w => put w (repeat (Some tzero) (length (sel w s))) s
  | DSame w => put w (sel (other w) s) s
  | DSelf _ => s
  | DCont w l => put w (map Some l) s
  | DExpr w e => match size_of s e with Some n => put w (build n (value s e)) s | None => s end
  | DComp w f e | DNoaliasComp w f e => put w (build (length (sel w s)) (fun i => lift2 f (elem (sel w s) i) (value s e i))) s
  | DNoalias w e => put w (build (length (sel w s)) (value s e)) s
  | DScalar w f => put w (map (lift1 f) (sel w s)) s
  | DSwap => (snd s, fst s)
  end.
(** the exception a call must raise in checked builds, if any; [fits n]: a vector can have n elements, [big]: the exception
    otherwise *)
Definition must_throw (fits : nat -> bool) (big : exn) s (o : dv_op T) : option exn :=
  let room n := if fits n then None else Some big in
  let sized w e := match size_of s e with Some n => if n =? length (sel w s) then None else Some bad_argument | None => Some bad_argument end in
  match o with
  | DResize _ n _ => room n
  | DSet w i _ | DErase w i => if i <? length (sel w s) then None else Some bad_index
  | DCont _ l => room (length l)
  | DExpr _ e => match size_of s e with Some n => room n | None => Some bad_argument end
  | DComp w _ e | DNoaliasComp w _ e | DNoalias w e => sized w e
  | _ => None
  end.
End Spec.

(** a history of legal calls *)
Fixpoint legal {T} (fits : nat -> bool) (big : exn) (tzero : T) (s : contents T * contents T) (ops : list (dv_op T)) : Prop :=
  match ops with [] => True | o :: ops => must_throw fits big s o = None /\ legal fits big tzero (after tzero s o) ops end.
Definition is_resize {T} (o : dv_op T) : bool := match o with DResize _ _ _ => true | _ => false end.
(** vector [a] shows the values [s]: size (), a (i), and the iterators forwards, backwards and from find (i) to find (j) *)
Definition shown {S T} (A : store S T) (chk : bool) (tzero : T) (s : contents T) (a : S) : Prop :=
  exists l : list T,
    length l = length s /\ (forall i x, elem s i = Some x -> nth_error l i = Some x) /\
    (forall i, dv_get A a i = match nth_error l i with Some x => Ok x | None => if chk then Throw bad_index else dv_get A a i end) /\
    is_vector (dv_iter A chk tzero a) tzero (length l) (nth_error l).

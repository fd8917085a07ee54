(** ViewIterModel.v -- the const_iterators of vector and matrix proxies (views),
    /repo/include/boost/numeric/ublas/vector_proxy.hpp and matrix_proxy.hpp, and of the index sets they use,
    storage.hpp; default build (BOOST_UBLAS_USE_INDEXED_ITERATOR not defined).  iterator has the same code as
    const_iterator; const_iterator2 is const_iterator1 with the indices exchanged, [d] says in which
    direction an iterator moves.
    Simplifications: sizes and indices are unbounded (an index below zero, which would wrap around, is UB);
    the same_closure checks (and the comparison of the index sets) when iterators are compared are not
    modelled; the underlying containers are those of AssignModel and MAssignModel: sizes, elements and the
    positions their iterators visit, standing before the k-th of them. *)
From Verif Require Import Base AssignModel MAssignModel MexModel.
Open Scope nat_scope.

(** basic_range (start, start + n), basic_slice (start, stride, n), indirect_array. *)
Inductive isel := XRange (start n : nat) | XSlice (start : nat) (stride : Z) (n : nat) | XList (l : list nat).
(** size (): storage.hpp:1038-1040, 1268-1270, 1506-1508. *)
Definition xsize (x : isel) : nat := match x with XRange _ n | XSlice _ _ n => n | XList l => length l end.
Definition z_idx (z : Z) : res nat := if (z <? 0)%Z then UB else Ok (Z.to_nat z).
(** operator () (i): 1055-1058, 1285-1289, 1531-1534. *)
Definition xat (chk : bool) (x : isel) (i : nat) : res nat :=
  match x with
  | XRange s n => check chk (i <? n) bad_index ;; Ok (s + i)
  | XSlice s st n =>
      check chk (i <? n) bad_index ;;
      check chk ((0 <=? st)%Z || (Z.of_nat i * - st <=? Z.of_nat s)%Z) bad_index ;;
      z_idx (Z.of_nat s + Z.of_nat i * st)
  | XList l => check chk (i <? length l) bad_index ;; match nth_error l i with Some p => Ok p | None => UB end
  end.
(** The const_iterator of an index set: the value of it_, which is an element for a range and a position for
    the others.  begin (), end (): 1180-1191, 1415-1426, 1691-1702. *)
Definition xbegin (x : isel) : nat := match x with XRange s _ => s | _ => 0 end.
Definition xend (x : isel) : nat := match x with XRange s n => s + n | XSlice _ _ n => n | XList l => length l end.
(** operator --: 1110-1114, 1347-1351, 1628-1631 (a signed subtraction without check). *)
Definition xdec (chk : bool) (x : isel) (k : nat) : res nat :=
  (match x with XList _ => Ok tt | _ => check chk (0 <? k) bad_index end) ;;
  z_idx (Z.of_nat k - 1).
(** operator +=: 1116-1120, 1353-1357, 1633-1636. *)
Definition xadv (chk : bool) (x : isel) (k : nat) (n : Z) : res nat :=
  (match x with XList _ => Ok tt | _ => check chk ((0 <=? n)%Z || (- n <=? Z.of_nat k)%Z) bad_index end) ;;
  z_idx (Z.of_nat k + n).
(** operator *: 1134-1138, 1371-1374, 1649-1651. *)
Definition xderef (chk : bool) (x : isel) (k : nat) : res nat :=
  match x with
  | XRange s n => check chk (s <=? k) bad_index ;; check chk (k <? s + n) bad_index ;; Ok k
  | XSlice s st n => check chk (k <? n) bad_index ;; z_idx (Z.of_nat s + Z.of_nat k * st)
  | XList l => xat chk x k
  end.
(** index (): 1147-1151, 1383-1386, 1660-1662 (no check). *)
Definition xindex (chk : bool) (x : isel) (k : nat) : res nat :=
  match x with
  | XRange s n => check chk (s <=? k) bad_index ;; check chk (k <? s + n) bad_index ;; z_idx (Z.of_nat k - Z.of_nat s)
  | XSlice s st n => check chk (k <? n) bad_index ;; Ok k
  | XList l => Ok k
  end.

Section ViewIter.
Context {T : Type}.

(** Matrix views: of a container; matrix_range (matrix_proxy.hpp:2403-3340) of rows s1 .. s1 + n1 - 1 and columns
    s2 .. s2 + n2 - 1; matrix_slice (3390-4355) and matrix_indirect (4445-5395). *)
Inductive mview :=
| QLeaf (m : mexp T)
| QRange (s1 n1 s2 n2 : nat) (q : mview)
| QSel (x1 x2 : isel) (q : mview).
(** Vector views: of a container; vector_range (vector_proxy.hpp:33-540), vector_slice (603-1085) and vector_indirect
    (1166-1640); matrix_row i (d = A2, c = i; matrix_proxy.hpp:28-470) and matrix_column j (d = A1, c = j; 500-945);
    matrix_vector_range, _slice and _indirect (972-1425, 1443-1905, 1925-2395). *)
Inductive vview :=
| PLeaf (s : src T)
| PRange (s n : nat) (p : vview)
| PSel (x : isel) (p : vview)
| PLine (d : axis) (c : nat) (q : mview)
| PDiag (x1 x2 : isel) (q : mview).

(** size1 (), size2 (): 2458-2469, 3462-3469, 4483-4490. *)
Definition qdim (q : mview) (d : axis) : nat :=
  match q with
  | QLeaf m => match d with A1 => e_1 m | A2 => e_2 m end
  | QRange _ n1 _ n2 _ => match d with A1 => n1 | A2 => n2 end
  | QSel x1 x2 _ => match d with A1 => xsize x1 | A2 => xsize x2 end
  end.
(** BOOST_UBLAS_SAME: exception.hpp:279-283, 292. *)
Definition same2 (chk : bool) (a b : nat) : res nat :=
  if chk then check chk (a =? b) bad_argument ;; Ok (Nat.min a b) else Ok a.
(** size (): vector_proxy.hpp:82-84, 658-660, 1206-1208; matrix_proxy.hpp:62-64, 535-537, 1020-1022, 1499-1501, 1964-1966. *)
Definition psize (chk : bool) (p : vview) : res nat :=
  match p with
  | PLeaf s => Ok (s_n s)
  | PRange _ n _ => Ok n
  | PSel x _ => Ok (xsize x)
  | PLine d _ q => Ok (qdim q d)
  | PDiag x1 x2 _ => same2 chk (xsize x1) (xsize x2)
  end.

Section Run.
Variable chk : bool.

(** operator () (i, j): 2483-2490, 3483-3490, 4520-4527; the containers check both indices. *)
Fixpoint qget (q : mview) (i j : nat) : res T :=
  match q with
  | QLeaf m =>
      check chk (i <? e_1 m) bad_index ;; check chk (j <? e_2 m) bad_index ;;
      if (i <? e_1 m) && (j <? e_2 m) then Ok (e_at m i j) else UB
  | QRange s1 n1 s2 n2 q1 =>
      let* i' := xat chk (XRange s1 n1) i in let* j' := xat chk (XRange s2 n2) j in qget q1 i' j'
  | QSel x1 x2 q1 => let* i' := xat chk x1 i in let* j' := xat chk x2 j in qget q1 i' j'
  end.
(** operator () (i): vector_proxy.hpp:99-106, 675-682, 1231-1238; matrix_proxy.hpp:83-90, 556-563, 1037-1044,
    1516-1523, 1997-2004. *)
Fixpoint pget (p : vview) (i : nat) : res T :=
  match p with
  | PLeaf s => check chk (i <? s_n s) bad_index ;; if i <? s_n s then Ok (s_at s i) else UB
  | PRange s n p1 => let* i' := xat chk (XRange s n) i in pget p1 i'
  | PSel x p1 => let* i' := xat chk x i in pget p1 i'
  | PLine d c q => match d with A1 => qget q i c | A2 => qget q c i end
  | PDiag x1 x2 q => let* i' := xat chk x1 i in let* j' := xat chk x2 i in qget q i' j'
  end.

(** Iterators of matrix views.  KLeaf: of the container, made by find (rank, ..) with cross index c, standing
    before the k-th visited position; KSub: it_ of matrix_range; KIdx: the two index iterators of matrix_slice
    and matrix_indirect, first the one that moves. *)
Inductive kit := KLeaf (rank1 : bool) (c k : nat) | KSub (it : kit) | KIdx (p c : nat).

(** find1 (rank, i, c) for d = A1, find2 (rank, c, i) for d = A2: 2624-2660; 3625-3656, 4665-4696 (the rank is not used). *)
Fixpoint qfind (q : mview) (d : axis) (rank1 : bool) (i c : nat) : res kit :=
  match q with
  | QLeaf m => Ok (KLeaf rank1 c (length (filter (fun j => j <? i) (lvisits m d rank1 c))))
  | QRange s1 _ s2 _ q1 =>
      let* it := (match d with A1 => qfind q1 d rank1 (s1 + i) (s2 + c) | A2 => qfind q1 d rank1 (s2 + i) (s1 + c) end) in
      Ok (KSub it)
  | QSel x1 x2 _ =>
      let (xm, xc) := match d with A1 => (x1, x2) | A2 => (x2, x1) end in
      let* p := xadv chk xm (xbegin xm) (Z.of_nat i) in
      let* b := xadv chk xc (xbegin xc) (Z.of_nat c) in
      Ok (KIdx p b)
  end.
(** operator ++: 2687-2690, 3685-3688, 4725-4728; 2998-3001, 4004-4007, 5044-5047. *)
Fixpoint qinc (q : mview) (d : axis) (it : kit) : res kit :=
  match q, it with
  | QLeaf m, KLeaf r c k => if k <? length (lvisits m d r c) then Ok (KLeaf r c (k + 1)) else UB
  | QRange _ _ _ _ q1, KSub i1 => let* j := qinc q1 d i1 in Ok (KSub j)
  | QSel _ _ _, KIdx p c => Ok (KIdx (p + 1) c)
  | _, _ => UB
  end.
(** operator --: 2692-2695, 3690-3693, 4730-4733; 3003-3006, 4009-4012, 5049-5052. *)
Fixpoint qdec (q : mview) (d : axis) (it : kit) : res kit :=
  match q, it with
  | QLeaf m, KLeaf r c k => if 0 <? k then Ok (KLeaf r c (k - 1)) else UB
  | QRange _ _ _ _ q1, KSub i1 => let* j := qdec q1 d i1 in Ok (KSub j)
  | QSel x1 x2 _, KIdx p c => let* p' := xdec chk (match d with A1 => x1 | A2 => x2 end) p in Ok (KIdx p' c)
  | _, _ => UB
  end.
(** operator += (for containers with random access iterators): 2697-2700, 3695-3698, 4735-4738; 3008-3011, 4014-4017,
    5054-5057. *)
Fixpoint qadv (q : mview) (d : axis) (it : kit) (n : Z) : res kit :=
  match q, it with
  | QLeaf m, KLeaf r c k =>
      let* k' := z_idx (Z.of_nat k + n) in
      if k' <=? length (lvisits m d r c) then Ok (KLeaf r c k') else UB
  | QRange _ _ _ _ q1, KSub i1 => let* j := qadv q1 d i1 n in Ok (KSub j)
  | QSel x1 x2 _, KIdx p c => let* p' := xadv chk (match d with A1 => x1 | A2 => x2 end) p n in Ok (KIdx p' c)
  | _, _ => UB
  end.
(** operator -: 2707-2710, 3705-3709, 4745-4749; 3018-3021, 4024-4028, 5064-5068. *)
Fixpoint qdiff (q : mview) (d : axis) (a b : kit) : res Z :=
  match q, a, b with
  | QLeaf m, KLeaf r c k, KLeaf r' c' k' =>
      if Bool.eqb r r' && (c =? c') then Ok (Z.of_nat k - Z.of_nat k')%Z else UB
  | QRange _ _ _ _ q1, KSub i, KSub j => qdiff q1 d i j
  | QSel _ _ _, KIdx p c, KIdx p' c' => check chk (c =? c') external_logic ;; Ok (Z.of_nat p - Z.of_nat p')%Z
  | _, _, _ => UB
  end.
(** operator ==: 2803-2806, 3802-3806, 4842-4846; 3114-3117, 4121-4125, 5161-5165. *)
Fixpoint qequal (q : mview) (d : axis) (a b : kit) : res bool :=
  match q, a, b with
  | QLeaf m, KLeaf r c k, KLeaf r' c' k' => if Bool.eqb r r' && (c =? c') then Ok (k =? k') else UB
  | QRange _ _ _ _ q1, KSub i, KSub j => qequal q1 d i j
  | QSel _ _ _, KIdx p c, KIdx p' c' => check chk (c =? c') external_logic ;; Ok (p =? p')
  | _, _, _ => UB
  end.
(** index1 () of a const_iterator1, index2 () of a const_iterator2: 2785-2787, 3783-3785, 4823-4825; 3100-3102, 4106-4108,
    5146-5148. *)
Fixpoint qindex (q : mview) (d : axis) (it : kit) : res nat :=
  match q, it with
  | QLeaf m, KLeaf r c k => match nth_error (lvisits m d r c) k with Some i => Ok i | None => UB end
  | QRange s1 _ s2 _ q1, KSub i1 =>
      let* i := qindex q1 d i1 in z_idx (Z.of_nat i - Z.of_nat (match d with A1 => s1 | A2 => s2 end))
  | QSel x1 x2 _, KIdx p _ => xindex chk (match d with A1 => x1 | A2 => x2 end) p
  | _, _ => UB
  end.
(** index2 () of a const_iterator1, index1 () of a const_iterator2: 2789-2791, 3787-3789, 4827-4829; 3096-3098, 4102-4104,
    5142-5144. *)
Fixpoint qcross (q : mview) (d : axis) (it : kit) : res nat :=
  match q, it with
  | QLeaf m, KLeaf r c k => Ok c
  | QRange s1 _ s2 _ q1, KSub i1 =>
      let* i := qcross q1 d i1 in z_idx (Z.of_nat i - Z.of_nat (match d with A1 => s2 | A2 => s1 end))
  | QSel x1 x2 _, KIdx _ c => xindex chk (match d with A1 => x2 | A2 => x1 end) c
  | _, _ => UB
  end.
(** operator *: 2714-2716, 3713-3716, 4753-4756; 3025-3027, 4032-4035, 5072-5075. *)
Fixpoint qderef (q : mview) (d : axis) (it : kit) : res T :=
  match q, it with
  | QLeaf m, KLeaf r c k =>
      match nth_error (lvisits m d r c) k with
      | Some i => Ok (match d with A1 => e_at m i c | A2 => e_at m c i end)
      | None => UB
      end
  | QRange _ _ _ _ q1, KSub i1 => qderef q1 d i1
  | QSel x1 x2 q1, KIdx p c =>
      match d with
      | A1 => let* i := xderef chk x1 p in let* j := xderef chk x2 c in qget q1 i j
      | A2 => let* i := xderef chk x1 c in let* j := xderef chk x2 p in qget q1 i j
      end
  | _, _ => UB
  end.
(** it.begin (), it.end (): the iterators of the other kind inside the line [it] stands at: 2727-2730 and 2742-2745 (find2
    (1, index1 (), 0) and find2 (1, index1 (), size2 ())), 3727-3729, 3741-3743, 4767-4769, 4781-4783 (the same two index
    iterators, the second one reset); 3038-3056, 4046-4062, 5086-5102; containers as matrix_range. *)
Definition qbegin (q : mview) (d : axis) (it : kit) : res kit :=
  match q, it with
  | QSel x1 x2 _, KIdx p c => Ok (KIdx (xbegin (match d with A1 => x2 | A2 => x1 end)) p)
  | _, _ => let* i := qindex q d it in qfind q (other d) true 0 i
  end.
Definition qend (q : mview) (d : axis) (it : kit) : res kit :=
  match q, it with
  | QSel x1 x2 _, KIdx p c => Ok (KIdx (xend (match d with A1 => x2 | A2 => x1 end)) p)
  | _, _ => let* i := qindex q d it in qfind q (other d) true (qdim q (other d)) i
  end.

(** Iterators of vector views.  ILeaf: of the container, before the k-th visited position; ISub: it_ of vector_range;
    IIdx: it_ of vector_slice, vector_indirect; ILine: it_ of matrix_row, matrix_column; IPair: it1_, it2_ of
    matrix_vector_range, _slice, _indirect. *)
Inductive wit := ILeaf (k : nat) | ISub (it : wit) | IIdx (k : nat) | ILine (it : kit) | IPair (k1 k2 : nat).

(** find (i): vector_proxy.hpp:244-251, 823-829, 1382-1388; matrix_proxy.hpp:220-227, 693-700, 1168-1170, 1647-1649,
    2128-2130. *)
Fixpoint pfind (p : vview) (i : nat) : res wit :=
  match p with
  | PLeaf s => Ok (ILeaf (length (filter (fun j => j <? i) (s_its s))))
  | PRange s _ p1 => let* it := pfind p1 (s + i) in Ok (ISub it)
  | PSel x _ => let* k := xadv chk x (xbegin x) (Z.of_nat i) in Ok (IIdx k)
  | PLine d c q => let* it := qfind q d true i c in Ok (ILine it)
  | PDiag x1 x2 _ =>
      let* k1 := xadv chk x1 (xbegin x1) (Z.of_nat i) in
      let* k2 := xadv chk x2 (xbegin x2) (Z.of_nat i) in
      Ok (IPair k1 k2)
  end.
(** operator ++: vector_proxy.hpp:286-289, 863-866, 1424-1427; matrix_proxy.hpp:262-265, 735-738, 1203-1207, 1684-1688,
    2165-2169. *)
Fixpoint pinc (p : vview) (it : wit) : res wit :=
  match p, it with
  | PLeaf s, ILeaf k => if k <? length (s_its s) then Ok (ILeaf (k + 1)) else UB
  | PRange _ _ p1, ISub i1 => let* j := pinc p1 i1 in Ok (ISub j)
  | PSel _ _, IIdx k => Ok (IIdx (k + 1))
  | PLine d _ q, ILine i1 => let* j := qinc q d i1 in Ok (ILine j)
  | PDiag _ _ _, IPair k1 k2 => Ok (IPair (k1 + 1) (k2 + 1))
  | _, _ => UB
  end.
(** operator --: vector_proxy.hpp:291-294, 868-871, 1429-1432; matrix_proxy.hpp:267-270, 740-743, 1209-1213, 1690-1694,
    2171-2175. *)
Fixpoint pdec (p : vview) (it : wit) : res wit :=
  match p, it with
  | PLeaf s, ILeaf k => if 0 <? k then Ok (ILeaf (k - 1)) else UB
  | PRange _ _ p1, ISub i1 => let* j := pdec p1 i1 in Ok (ISub j)
  | PSel x _, IIdx k => let* j := xdec chk x k in Ok (IIdx j)
  | PLine d _ q, ILine i1 => let* j := qdec q d i1 in Ok (ILine j)
  | PDiag x1 x2 _, IPair k1 k2 => let* a := xdec chk x1 k1 in let* b := xdec chk x2 k2 in Ok (IPair a b)
  | _, _ => UB
  end.
(** operator +=: vector_proxy.hpp:296-299, 873-876, 1434-1437; matrix_proxy.hpp:272-275, 745-748, 1215-1219, 1696-1700,
    2177-2181. *)
Fixpoint padv (p : vview) (it : wit) (n : Z) : res wit :=
  match p, it with
  | PLeaf s, ILeaf k =>
      let* k' := z_idx (Z.of_nat k + n) in
      if k' <=? length (s_its s) then Ok (ILeaf k') else UB
  | PRange _ _ p1, ISub i1 => let* j := padv p1 i1 n in Ok (ISub j)
  | PSel x _, IIdx k => let* j := xadv chk x k n in Ok (IIdx j)
  | PLine d _ q, ILine i1 => let* j := qadv q d i1 n in Ok (ILine j)
  | PDiag x1 x2 _, IPair k1 k2 => let* a := xadv chk x1 k1 n in let* b := xadv chk x2 k2 n in Ok (IPair a b)
  | _, _ => UB
  end.
(** operator -: vector_proxy.hpp:306-309, 883-886, 1444-1447; matrix_proxy.hpp:282-285, 755-758, 1227-1230, 1708-1711,
    2189-2192. *)
Fixpoint pdiff (p : vview) (a b : wit) : res Z :=
  match p, a, b with
  | PLeaf s, ILeaf k, ILeaf k' => Ok (Z.of_nat k - Z.of_nat k')%Z
  | PRange _ _ p1, ISub i, ISub j => pdiff p1 i j
  | PSel _ _, IIdx k, IIdx k' => Ok (Z.of_nat k - Z.of_nat k')%Z
  | PLine d _ q, ILine i, ILine j => qdiff q d i j
  | PDiag _ _ _, IPair k1 k2, IPair l1 l2 =>
      let z1 := (Z.of_nat k1 - Z.of_nat l1)%Z in let z2 := (Z.of_nat k2 - Z.of_nat l2)%Z in
      if chk then check chk (z1 =? z2)%Z bad_argument ;; Ok (Z.min z1 z2) else Ok z1
  | _, _, _ => UB
  end.
(** operator ==: vector_proxy.hpp:338-341, 916-919, 1477-1480; matrix_proxy.hpp:314-317, 787-790, 1260-1263, 1741-1744,
    2222-2225. *)
Fixpoint pequal (p : vview) (a b : wit) : res bool :=
  match p, a, b with
  | PLeaf s, ILeaf k, ILeaf k' => Ok (k =? k')
  | PRange _ _ p1, ISub i, ISub j => pequal p1 i j
  | PSel _ _, IIdx k, IIdx k' => Ok (k =? k')
  | PLine d _ q, ILine i, ILine j => qequal q d i j
  | PDiag _ _ _, IPair k1 k2, IPair l1 l2 => Ok ((k1 =? l1) && (k2 =? l2))
  | _, _, _ => UB
  end.
(** index (): vector_proxy.hpp:324-326, 902-904, 1463-1465; matrix_proxy.hpp:300-302, 773-775, 1245-1247, 1726-1728,
    2207-2209. *)
Fixpoint pindex (p : vview) (it : wit) : res nat :=
  match p, it with
  | PLeaf s, ILeaf k => match nth_error (s_its s) k with Some i => Ok i | None => UB end
  | PRange s _ p1, ISub i1 => let* i := pindex p1 i1 in z_idx (Z.of_nat i - Z.of_nat s)
  | PSel x _, IIdx k => xindex chk x k
  | PLine d _ q, ILine i1 => qindex q d i1
  | PDiag x1 x2 _, IPair k1 k2 =>
      let* i1 := xindex chk x1 k1 in
      let* i2 := xindex chk x2 k2 in
      same2 chk i1 i2
  | _, _ => UB
  end.
(** BOOST_UBLAS_CHECK (index () < size (), bad_index ()): only compiled in checked builds. *)
Definition deref_check (p : vview) (it : wit) : res unit :=
  if chk then
    let* i := pindex p it in
    let* n := psize chk p in
    check chk (i <? n) bad_index
  else Ok tt.
(** operator *: vector_proxy.hpp:313-316, 890-894, 1451-1455; matrix_proxy.hpp:289-292, 762-765, 1234-1237, 1715-1718,
    2196-2199. *)
Fixpoint pderef (p : vview) (it : wit) : res T :=
  match p, it with
  | PLeaf s, ILeaf k => match nth_error (s_its s) k with Some i => Ok (s_at s i) | None => UB end
  | PRange _ _ p1, ISub i1 => deref_check p it ;; pderef p1 i1
  | PSel x p1, IIdx k => deref_check p it ;; let* i := xderef chk x k in pget p1 i
  | PLine d _ q, ILine i1 => deref_check p it ;; qderef q d i1
  | PDiag x1 x2 q, IPair k1 k2 => let* i := xderef chk x1 k1 in let* j := xderef chk x2 k2 in qget q i j
  | _, _ => UB
  end.
(** begin (), end (): find (0), find (size ()): vector_proxy.hpp:354-367 etc. *)
Definition pbegin (p : vview) : res wit := pfind p 0.
Definition pend (p : vview) : res wit := let* n := psize chk p in pfind p n.

(** for (; it != it_end; ++ it) visit (it); running out of fuel is UB. *)
Fixpoint it_loop {I A} (eq : I -> I -> res bool) (visit : I -> res A) (inc : I -> res I)
  (fuel : nat) (it it_end : I) : res (list A) :=
  let* stop := eq it it_end in
  if stop then Ok [] else
  match fuel with
  | 0 => UB
  | S fuel' =>
      let* x := visit it in
      let* it' := inc it in
      let* l := it_loop eq visit inc fuel' it' it_end in
      Ok (x :: l)
  end.
(** for (r = rbegin (); r != rend (); ++ r) visit (r): reverse_iterator_base,
    detail/iterator.hpp:325-405: * r and r.index () are those
    of -- tmp, tmp a copy of the underlying iterator; ++ r is -- of the underlying iterator. *)
Fixpoint it_rloop {I A} (eq : I -> I -> res bool) (visit : I -> res A) (dec : I -> res I)
  (fuel : nat) (it it_begin : I) : res (list A) :=
  let* stop := eq it it_begin in
  if stop then Ok [] else
  match fuel with
  | 0 => UB
  | S fuel' =>
      let* tmp := dec it in
      let* x := visit tmp in
      let* it' := dec it in
      let* l := it_rloop eq visit dec fuel' it' it_begin in
      Ok (x :: l)
  end.

Definition pshow (p : vview) (it : wit) : res (nat * T) :=
  let* i := pindex p it in let* x := pderef p it in Ok (i, x).
Definition qshow (q : mview) (d : axis) (it : kit) : res (nat * T) :=
  let* i := qindex q d it in let* x := qderef q d it in Ok (i, x).

(** for (it = v.find (i); it != v.end (); ++ it) visit (it.index (), * it); *)
Definition p_from (p : vview) (i : nat) : res (list (nat * T)) :=
  let* n := psize chk p in
  let* it := pfind p i in
  let* it_end := pend p in
  it_loop (pequal p) (pshow p) (pinc p) (S n) it it_end.
(** for (r = v.rbegin (); r != v.rend (); ++ r) visit (r.index (), * r); *)
Definition p_reverse (p : vview) : res (list (nat * T)) :=
  let* n := psize chk p in
  let* it := pend p in
  let* it_begin := pbegin p in
  it_rloop (pequal p) (pshow p) (pdec p) (S n) it it_begin.
(** v.begin () [n] *)
Definition p_nth (p : vview) (n : Z) : res T :=
  let* it := pbegin p in
  let* it' := padv p it n in
  pderef p it'.

(** for (it1 = m.begin1 (); it1 != m.end1 (); ++ it1)
      for (it2 = it1.begin (); it2 != it1.end (); ++ it2) visit (it2.index1 (), it2.index2 (), * it2);
    (d = A1, row by row; d = A2: column by column). *)
Definition q_line (q : mview) (d : axis) (it : kit) : res (list (nat * nat * T)) :=
  let* i0 := qbegin q d it in
  let* i1 := qend q d it in
  it_loop (qequal q (other d))
    (fun j => let* i := qcross q (other d) j in let* y := qshow q (other d) j in Ok (i, fst y, snd y))
    (qinc q (other d)) (S (qdim q (other d))) i0 i1.
Definition q_traverse (q : mview) (d : axis) : res (list (list (nat * nat * T))) :=
  let* it := qfind q d false 0 0 in
  let* it_end := qfind q d false (qdim q d) 0 in
  it_loop (qequal q d) (q_line q d) (qinc q d) (S (qdim q d)) it it_end.
(** The same with reverse iterators: it1 = m.rbegin1 (), it2 = it1.rbegin (); reverse_iterator_base1::rbegin () is
    made from end () of -- tmp, rend () from begin () (detail/iterator.hpp:512-518). *)
Definition q_rline (q : mview) (d : axis) (it : kit) : res (list (nat * nat * T)) :=
  let* i0 := qbegin q d it in
  let* i1 := qend q d it in
  it_rloop (qequal q (other d))
    (fun j => let* i := qcross q (other d) j in let* y := qshow q (other d) j in Ok (i, fst y, snd y))
    (qdec q (other d)) (S (qdim q (other d))) i1 i0.
Definition q_rtraverse (q : mview) (d : axis) : res (list (list (nat * nat * T))) :=
  let* it := qfind q d false 0 0 in
  let* it_end := qfind q d false (qdim q d) 0 in
  it_rloop (qequal q d) (q_rline q d) (qdec q d) (S (qdim q d)) it_end it.
End Run.
End ViewIter.
Arguments mview : clear implicits.
Arguments vview : clear implicits.

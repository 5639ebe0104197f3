(** Index patterns: each dimension is kept or fixed at one element; dense indexing and assignment. Independent of the code. *)
From Verif Require Import Base Quantity QuantityProofs Ring SpecIndex Dense BTensor SpecBTensor SpecReshape.
Set Implicit Arguments.

(** [None]: the dimension is kept; [Some a]: only element [a] of it. *)
Notation pattern := (list (option nat)).
(** The argument of the C++ functions: -1 for a kept dimension. *)
Definition zpat (p : pattern) : list Z := map (fun x => match x with None => (-1)%Z | Some a => Z.of_nat a end) p.
(** What belongs to the kept dimensions. *)
Fixpoint keep {A} (p : pattern) (l : list A) : list A :=
  match p, l with
  | None :: p', x :: l' => x :: keep p' l'
  | Some _ :: p', _ :: l' => keep p' l'
  | _, _ => []
  end.
(** Full index from an index of the kept dimensions. *)
Fixpoint fill (p : pattern) (i : list nat) : list nat :=
  match p, i with
  | [], _ => []
  | Some a :: p', _ => a :: fill p' i
  | None :: p', x :: i' => x :: fill p' i'
  | None :: p', [] => 0 :: fill p' []
  end.
(** The fixed elements exist. *)
Fixpoint pat_ok (L : list (list nat)) (p : pattern) : Prop :=
  match L, p with
  | [], [] => True
  | l :: L', None :: p' => pat_ok L' p'
  | l :: L', Some a :: p' => a < sum_list l /\ pat_ok L' p'
  | _, _ => False
  end.
(** [bp] and [op] give the section and the offset of every fixed element. *)
Fixpoint resolves (L : list (list nat)) (p bp op : pattern) : Prop :=
  match L, p, bp, op with
  | [], [], [], [] => True
  | l :: L', None :: p', None :: bp', None :: op' => resolves L' p' bp' op'
  | l :: L', Some a :: p', Some b :: bp', Some o :: op' => located l a b o /\ resolves L' p' bp' op'
  | _, _, _, _ => False
  end.
(** The entries of the fixed dimensions: entry [b] of list [l] for a dimension fixed at [b]. *)
Fixpoint fixed {A} (dflt : A) (bp : pattern) (L : list (list A)) : list A :=
  match bp, L with
  | Some b :: bp', l :: L' => nth b l dflt :: fixed dflt bp' L'
  | None :: bp', _ :: L' => fixed dflt bp' L'
  | _, _ => []
  end.
(** The dimensions fixed after the last kept one have a single section. *)
Definition tail_single (L : list (list nat)) (p : pattern) : Prop :=
  forall i, i < length p -> (forall j, i <= j < length p -> nth j p None <> None) -> length (nth i L []) = 1.

(** Only dimension [d], of [n], is fixed (at its first element). *)
Definition single (d n : nat) : pattern := map (fun i => if i =? d then Some 0 else None) (seq 0 n).
(** The dimensions with one section of size one are fixed at their only element. *)
Definition unit_leg (l : list nat) : bool := match l with [s] => s =? 1 | _ => false end.
Definition unit_dims (L : list (list nat)) : pattern := map (fun l => if unit_leg l then Some 0 else None) L.

Section Spec.
  Variable G : abgroup.
  Variable R : ring.
  Implicit Types T : btensor G R.

  (** Dense indexing. *)
  Definition d_view (p : pattern) (D : dense R) : dense R := mkD (keep p (dsh D)) (fun i => dv D (fill p i)).

  (** [S] has the kept dimensions of [T]; its rule and the quantities of the fixed sections make up the rule of [T], and allow
      the blocks of the slice. *)
  Definition view_meta (p : pattern) T (S : btensor G R) : Prop :=
    legs S = keep p (legs T) /\ qlegs S = keep p (qlegs T) /\ b_rank S = length (keep p (legs T)) /\
    forall bp op, resolves (legs T) p bp op ->
      qop G (b_rule S) (qprod G (fixed (qe G) bp (qlegs T))) = b_rule T /\
      forall k, in_range (b_sbd S) k = true -> (allowed S k <-> allowed T (fill bp k)).
  (** Result [T'] of writing [V] at the blocks it stores: the addressed entries of those blocks come from [V], all other
      entries from [T]. *)
  Definition written (bp op : pattern) T (V T' : btensor G R) : Prop :=
    (forall k o, in_range (b_sbd V) k = true -> in_range (pick 0 (legs V) k) o = true -> stored V k ->
      bentry T' (fill bp k) (fill op o) = bentry V k o) /\
    (forall k o, in_range (b_sbd V) k = true -> in_range (pick 0 (legs V) k) o = true -> ~ stored V k ->
      bentry T' (fill bp k) (fill op o) = bentry T (fill bp k) (fill op o)) /\
    (forall b o, in_range (b_sbd T) b = true -> in_range (pick 0 (legs T) b) o = true ->
      (forall k o', b = fill bp k -> o <> fill op o') -> bentry T' b o = bentry T b o).
  (** Dense assignment: the elements of the slice come from [V]. *)
  Fixpoint on_slice (p : pattern) (i : list nat) : bool :=
    match p, i with
    | Some a :: p', x :: i' => (x =? a) && on_slice p' i'
    | None :: p', _ :: i' => on_slice p' i'
    | _, _ => true
    end.
  Definition d_assign (p : pattern) (D V : dense R) : dense R :=
    mkD (dsh D) (fun i => if on_slice p i then dv V (keep p i) else dv D i).
End Spec.

(** Amplitudes of chains of dense tensors, by their definition as sums over bond indices; independent of the functions of the
    code. Sites have indices (left bond, physical, right bond); operators (left bond, out, right bond, in). *)
From Verif Require Import Base Ring SpecIndex Dense.
Set Implicit Arguments.

(** Which chains fit together. [tl] gives the dimensions of a tensor (their sizes for a dense tensor; section sizes and
    quantities for a block tensor), [dual] the dimension that can be contracted with a given one. *)
Section Fit.
  Variables (T K : Type) (tl : T -> list K) (dual : K -> K).
  (** Chain of sites from bond [x] to bond [y]: the left dimension of a site is dual to the right one of its neighbour. *)
  Fixpoint mps_fit (l : list T) (x y : K) : Prop :=
    match l with
    | [] => x = y
    | A :: l' => exists s k, tl A = [dual x; s; k] /\ mps_fit l' k y
    end.
  (** Chain of operators that can act on the chain [a] and be closed with the conjugate of the chain [b]. *)
  Fixpoint mpo_fit (l a b : list T) (x y : K) : Prop :=
    match l, a, b with
    | [], [], [] => x = y
    | A :: l', s :: a', s' :: b' => exists k p p', tl A = [dual x; p'; k; dual p] /\
        nth_error (tl s) 1 = Some p /\ nth_error (tl s') 1 = Some p' /\ mpo_fit l' a' b' k y
    | _, _, _ => False
    end.
  (** Chain of operators with any physical dimensions. *)
  Fixpoint op_chain (l : list T) (x y : K) : Prop :=
    match l with
    | [] => x = y
    | A :: l' => exists p k p', tl A = [dual x; p; k; p'] /\ op_chain l' k y
    end.
  (** Two chains with the same physical dimensions. *)
  Fixpoint same_phys (a b : list T) : Prop :=
    match a, b with
    | [], [] => True
    | s :: a', s' :: b' => nth_error (tl s) 1 = nth_error (tl s') 1 /\ same_phys a' b'
    | _, _ => False
    end.
End Fit.

Section S.
  Variable R : ring.
  Notation "'sum' x < n , e" := (sumf R (fun x => e) (seq 0 n)) (at level 200, x name, n at level 69, e at level 200).
  Notation t := (dense R).
  Definition size (k : nat) (A : t) : nat := nth k (dsh A) 0.

  (** A rank-zero tensor. *)
  Definition scalar (v : R) : t := mkD [] (fun _ => v).

  (** Amplitude of a chain for a physical configuration between two bond values. *)
  Fixpoint amp (l : list t) (c : list nat) (x y : nat) : R :=
    match l, c with
    | A :: l', s :: c' => sum k < size 2 A, rmul (dv A [x; s; k]) (amp l' c' k y)
    | _, _ => if x =? y then ro else rz
    end.
  (** Matrix element of a chain of operators between two configurations. *)
  Fixpoint op_amp (l : list t) (out inn : list nat) (x y : nat) : R :=
    match l, out, inn with
    | A :: l', s :: out', s' :: inn' => sum k < size 2 A, rmul (dv A [x; s; k; s']) (op_amp l' out' inn' k y)
    | _, _, _ => if x =? y then ro else rz
    end.
  (** Two neighbouring operators as one tensor: left bond, out, out, right bond, in, in. *)
  Definition two_site (A B : t) : t :=
    mkD [size 0 A; size 1 A; size 1 B; size 2 B; size 3 A; size 3 B]
      (fun i => op_amp [A; B] [nth 1 i 0; nth 2 i 0] [nth 4 i 0; nth 5 i 0] (nth 0 i 0) (nth 3 i 0)).
  (** Physical dimensions, and all configurations. *)
  Definition configs (l : list t) : list (list nat) := idxs (map (size 1) l).

  (** The matrix element <b| h |a> of the operator chain between all bond values at both ends: sum over all configurations. *)
  Definition element (a b h : list t) (x o y x' o' y' : nat) : R :=
    sumf R (fun s => sumf R (fun s' => rmul (rmul (amp a s x x') (op_amp h s' s o o')) (rconj (amp b s' y y'))) (configs b)) (configs a).
  (** With weights [L] and [E] on the bonds at the ends. *)
  Definition expectation (a b h : list t) (L E : t) : R :=
    sum x < size 0 L, sum o < size 1 L, sum y < size 2 L, sum x' < size 0 E, sum o' < size 1 E, sum y' < size 2 E,
      rmul (rmul (dv L [x; o; y]) (element a b h x o y x' o' y')) (dv E [x'; o'; y']).
  (** The part of the chains between the left end and a bond, weighted with [L]; and between a bond and the right end. *)
  Definition left_part (a h : list t) (L : t) (i j k : nat) : R :=
    sum x < size 0 L, sum o < size 1 L, sum y < size 2 L, rmul (dv L [x; o; y]) (element a a h x o y i j k).
  Definition right_part (a h : list t) (E : t) (i j k : nat) : R :=
    sum x < size 0 E, sum o < size 1 E, sum y < size 2 E, rmul (element a a h i j k x o y) (dv E [x; o; y]).
  (** The overlap <b|a> between all bond values at both ends. *)
  Definition overlap (a b : list t) (x y x' y' : nat) : R :=
    sumf R (fun s => rmul (amp a s x x') (rconj (amp b s y y'))) (configs a).
  Definition inner (a b : list t) (L E : t) : R :=
    sum x < size 0 L, sum y < size 1 L, sum x' < size 0 E, sum y' < size 1 E,
      rmul (rmul (dv L [x; y]) (overlap a b x y x' y')) (dv E [x'; y']).
End S.

Arguments scalar {R} v.

(** Dimensions of block tensors: section sizes and quantities. The dual one has the same sections and inverse quantities. *)
From Verif Require Import Quantity BTensor SpecBTensor.
Section B.
  Variable G : abgroup.
  Variable R : ring.
  Notation leg := (list nat * list G)%type.
  Definition blegs (T : btensor G R) : list leg := combine (legs T) (qlegs T).
  Definition bdual (l : leg) : leg := (fst l, map (qinv G) (snd l)).
  Definition bsz (l : leg) : nat := sum_list (fst l).
  (** Stored tensors: valid and with at most [imax] sections per dimension. *)
  Definition stored (imax : nat) (T : btensor G R) (D : dense R) : Prop :=
    valid T /\ dense_form T D /\ forall s, In s (b_sbd T) -> s <= imax.
End B.

(** Factorizations of matrices and of tensors cut in two, independent of the functions of the code. *)
From Verif Require Import Base Quantity QuantityProofs Ring SpecIndex Dense BTensor SpecBTensor SpecChain SpecSector.
Set Implicit Arguments.

Section S.
  Context {R : ring}.
  Notation "'sum' x < n , e" := (sumf R (fun x => e) (seq 0 n)) (at level 200, x name, n at level 69, e at level 200).
  (** [M], of size [m] by [n], is U diag(d) V^H with [k] values in [d]. *)
  Definition factors (m n k : nat) (M U d V : dense R) : Prop :=
    dsh U = [m; k] /\ dsh d = [k] /\ dsh V = [n; k] /\
    forall i j, i < m -> j < n -> dv M [i; j] = sum c < k, rmul (rmul (dv U [i; c]) (dv d [c])) (rconj (dv V [j; c])).
  (** The [k] columns are orthonormal. *)
  Definition orthonormal (m k : nat) (U : dense R) : Prop :=
    forall c c', c < k -> c' < k -> (sum i < m, rmul (rconj (dv U [i; c])) (dv U [i; c'])) = if c =? c' then ro else rz.
  (** A thin factorization, and one with isometries: what [torch::svd] returns. *)
  Definition thin (M : dense R) (F : dense R * dense R * dense R) : Prop :=
    let '(U, d, V) := F in forall m n, dsh M = [m; n] -> factors m n (Nat.min m n) M U d V.
  Definition isometries (M : dense R) (F : dense R * dense R * dense R) : Prop :=
    let '(U, d, V) := F in forall m n, dsh M = [m; n] -> orthonormal m (Nat.min m n) U /\ orthonormal n (Nat.min m n) V.

  (** All entries are real. *)
  Definition real_entries (d : dense R) : Prop := forall i, in_range (dsh d) i = true -> rconj (dv d i) = dv d i.

  (** The same for a tensor whose dimensions are cut in two groups of sizes [s1] and [s2]. *)
  Definition tensor_factors (s1 s2 : list nat) (k : nat) (D U d V : dense R) : Prop :=
    dsh U = s1 ++ [k] /\ dsh d = [k] /\ dsh V = s2 ++ [k] /\
    forall i j, in_range s1 i = true -> in_range s2 j = true ->
      dv D (i ++ j) = sum c < k, rmul (rmul (dv U (i ++ [c])) (dv d [c])) (rconj (dv V (j ++ [c]))).
  Definition tensor_orthonormal (s : list nat) (k : nat) (U : dense R) : Prop :=
    forall c c', c < k -> c' < k ->
      sumf R (fun i => rmul (rconj (dv U (i ++ [c]))) (dv U (i ++ [c']))) (idxs s) = if c =? c' then ro else rz.
End S.

Section B.
  Context {G : abgroup} {R : ring}.
  (** Index [i] of the dimensions [L] carries the total quantity [q]. *)
  Definition index_carries (L : list (list nat * list G)) (i : list nat) (q : G) : Prop :=
    length i = length L /\ exists cs, length cs = length L /\ (forall d, d < length L -> carries (nth d L ([], [])) (nth d i 0) (nth d cs (qe G))) /\ qprod G cs = q.
  (** [M] is a submatrix of the dense form [D] of [T], its dimensions cut before position [s]: all its rows carry one quantity,
      all its columns another one, and both make up the rule of [T]. *)
  Definition sector_matrix (s : nat) (T : btensor G R) (D M : dense R) : Prop :=
    exists m n f g q q', dsh M = [m; n] /\ qop G q q' = b_rule T /\
      (forall i, i < m -> index_carries (firstn s (blegs T)) (f i) q) /\ (forall j, j < n -> index_carries (skipn s (blegs T)) (g j) q') /\
      (forall i i', i < m -> i' < m -> f i = f i' -> i = i') /\ (forall j j', j < n -> j' < n -> g j = g j' -> j = j') /\
      forall i j, i < m -> j < n -> dv M [i; j] = dv D (f i ++ g j).
  (** Quantity of the part of a block index from position [s] on. *)
  Definition block_quantity (s : nat) (T : btensor G R) (b : list nat) : G := qprod G (pick (qe G) (skipn s (qlegs T)) (skipn s b)).
  (** All entries of some stored block of [T], and of all those with the same quantity after the cut, appear in [M]. *)
  Definition holds_sector (s : nat) (T : btensor G R) (M : dense R) : Prop :=
    exists b v, In (b, v) (b_blocks T) /\ forall b' v', In (b', v') (b_blocks T) -> block_quantity s T b' = block_quantity s T b ->
      forall o, in_range (dsh v') o = true -> exists i, in_range (dsh M) i = true /\ dv M i = dv v' o.
  (** Each of the [n] sections of [d] holds the values [vals M] of a sector. *)
  Definition section_values (s : nat) (T : btensor G R) (D : dense R) (vals : dense R -> dense R) (d : btensor G R) (n : nat) : Prop :=
    forall c, c < n -> exists M, sector_matrix s T D M /\ holds_sector s T M /\ In ([c], vals M) (b_blocks d).
  (** A dimension with the same sections and neutral quantities. *)
  Definition neutral_leg (k : list nat * list G) : list nat * list G := (fst k, map (fun _ => qe G) (snd k)).
  Notation sizes L := (map (@bsz G) L).
  (** Number of blocks of sections of some dimensions. *)
  Definition sections (L : list (list nat * list G)) : nat := prod_list (map (fun l => length (fst l)) L).
  (** [U], [d], [V] decompose [T], cut before dimension [s]: [U] has the dimensions before the cut, [V] the duals of those after
      it, and all share the new dimension [k]. [U] carries the rule of [T], [V] and [d] are neutral. The
      new dimension has no more sections and is no larger than either group, and its sections have distinct quantities. *)
  Definition decomposition (s : nat) (T : btensor G R) (D : dense R) (U d V : btensor G R) (k : list nat * list G) : Prop :=
    valid U /\ valid d /\ valid V /\ length (snd k) = length (fst k) /\ NoDup (snd k) /\ length (fst k) <= sections (firstn s (blegs T)) /\ length (fst k) <= sections (skipn s (blegs T)) /\
    bsz G k <= prod_list (sizes (firstn s (blegs T))) /\ bsz G k <= prod_list (sizes (skipn s (blegs T))) /\
    blegs U = firstn s (blegs T) ++ [k] /\ blegs d = [neutral_leg k] /\ blegs V = map (@bdual G) (skipn s (blegs T)) ++ [k] /\
    b_rule U = b_rule T /\ b_rule d = qe G /\ b_rule V = qe G /\
    exists DU Dd DV, dense_form U DU /\ dense_form d Dd /\ dense_form V DV /\
      tensor_factors (sizes (firstn s (blegs T))) (sizes (skipn s (blegs T))) (bsz G k) D DU Dd DV.
  (** The columns of [U] and of [V] are orthonormal. *)
  Definition isometric (s : nat) (T U V : btensor G R) (k : list nat * list G) : Prop :=
    forall DU DV, dense_form U DU -> dense_form V DV ->
      tensor_orthonormal (sizes (firstn s (blegs T))) (bsz G k) DU /\ tensor_orthonormal (sizes (skipn s (blegs T))) (bsz G k) DV.
End B.

(** Sums over bond indices of chains. *)
From Verif Require Import Base Ring SpecIndex Dense IndexProofs SpecTensordot Chain SpecChain.
Set Implicit Arguments.
Notation "'sum' x < n , e" := (sumf _ (fun x => e) (seq 0 n)) (at level 69, x name, n at level 68, e at level 69).

Section A.
  Variable R : ring.
  Add Ring Rring : (ring_th R).
  Notation t := (dense R).

  Lemma pull A B (F : A -> R) (G : A -> B -> R) l m : (forall a, F a = sumf R (G a) m) ->
    sumf R F l = sumf R (fun b => sumf R (fun a => G a b) l) m.
  Proof. intros H. rewrite <- sumf_swap. apply sumf_ext. intros a _. apply H. Qed.
  Lemma conj_ro : rconj (@ro R) = ro.
  Proof.
    transitivity (rmul (rconj (@ro R)) (rconj (rconj ro))); [rewrite rconj_conj; ring|].
    rewrite <- rconj_mul, rmul_1_l. apply rconj_conj.
  Qed.
  Lemma sum_idxs1 n (f : list nat -> R) : sumf R f (idxs [n]) = sum x < n, f [x].
  Proof. cbn [idxs]. rewrite sumf_flat_map. apply sumf_ext. intros a _. cbn. rewrite radd_comm, radd_0_l. reflexivity. Qed.
  Lemma sum_idxs_cons n s (f : list nat -> R) : sumf R f (idxs (n :: s)) = sum x < n, sumf R (fun c => f (x :: c)) (idxs s).
  Proof. cbn [idxs]. rewrite sumf_flat_map. apply sumf_ext. intros a _. rewrite sumf_map. reflexivity. Qed.
  Lemma sum_delta n (f : nat -> R) y : y < n -> sum x < n, rmul (f x) (if x =? y then ro else rz) = f y.
  Proof.
    intros Hy. rewrite (@sumf_single R _ _ _ y).
    - rewrite Nat.eqb_refl. ring.
    - apply seq_NoDup.
    - apply in_seq. lia.
    - intros a _ Ha. apply Nat.eqb_neq in Ha. rewrite Ha. ring.
  Qed.

  (** One site of the transfer matrix. *)
  Definition W (h a b : t) (x o y x' o' y' : nat) : R :=
    sum s < size 1 a, sum s' < size 1 b, rmul (rmul (dv a [x; s; x']) (dv h [o; s'; o'; s])) (rconj (dv b [y; s'; y'])).

  Tactic Notation "pulln" integer(n) := eapply eq_trans; [do n (apply pull; intro); reflexivity|cbn beta].
  Ltac inn := apply sumf_ext; intros ? _.

  Lemma prod3 A B C (f : A -> R) (g : B -> R) (h : C -> R) l m n :
    rmul (rmul (sumf R f l) (sumf R g m)) (sumf R h n) = sumf R (fun a => sumf R (fun b => sumf R (fun c => rmul (rmul (f a) (g b)) (h c)) n) m) l.
  Proof.
    rewrite <- (sumf_mul_r R f), <- sumf_mul_r. inn. rewrite <- (sumf_mul_l R g), <- sumf_mul_r. inn. rewrite <- sumf_mul_l. reflexivity.
  Qed.

  Lemma element_cons (a b h : t) la lb lh x o y x' o' y' : size 2 a = size 2 a ->
    element (a :: la) (b :: lb) (h :: lh) x o y x' o' y' =
    sum x1 < size 2 a, sum o1 < size 2 h, sum y1 < size 2 b, rmul (W h a b x o y x1 o1 y1) (element la lb lh x1 o1 y1 x' o' y').
  Proof.
    intros _. unfold element, configs. cbn [map]. rewrite sum_idxs_cons.
    transitivity (sum s < size 1 a, sumf R (fun c => sum s' < size 1 b, sumf R (fun c' =>
        sum x1 < size 2 a, sum o1 < size 2 h, sum y1 < size 2 b,
        rmul (rmul (rmul (dv a [x; s; x1]) (dv h [o; s'; o1; s])) (rconj (dv b [y; s'; y1])))
             (rmul (rmul (amp la c x1 x') (op_amp lh c' c o1 o')) (rconj (amp lb c' y1 y'))))
        (idxs (map (size 1) lb))) (idxs (map (size 1) la))).
    - inn. inn. rewrite sum_idxs_cons. inn. inn. cbn [amp op_amp]. rewrite <- sumf_conj, prod3.
      inn. inn. inn. rewrite rconj_mul. ring.
    - pulln 4. inn. pulln 4. inn. pulln 4. inn. unfold W. rewrite <- sumf_mul_r. inn.
      rewrite <- sumf_mul_r. symmetry. etransitivity; [|symmetry; apply sumf_swap]. inn. rewrite <- sumf_mul_l. inn.
      rewrite <- sumf_mul_l. reflexivity.
  Qed.
  Lemma element_nil x o y x' o' y' :
    element (R := R) [] [] [] x o y x' o' y' = rmul (rmul (if x =? x' then ro else rz) (if o =? o' then ro else rz)) (if y =? y' then ro else rz).
  Proof.
    unfold element, configs. cbn. destruct (y =? y'); rewrite ?conj_ro, ?rconj_0; ring.
  Qed.

  Ltac tred := cbv beta iota delta [length free gather seq filter map nth existsb Nat.eqb negb orb app firstn skipn coords slot index_of].
  Lemma element_one (a b h : t) x o y x' o' y' : x' < size 2 a -> o' < size 2 h -> y' < size 2 b ->
    element [a] [b] [h] x o y x' o' y' = W h a b x o y x' o' y'.
  Proof.
    intros Hx Ho Hy. rewrite element_cons by reflexivity.
    rewrite <- (sum_delta (fun p => W h a b x o y p o' y') Hx). inn.
    rewrite <- (sum_delta (fun q => W h a b x o y a0 q y') Ho), <- sumf_mul_r. inn.
    rewrite <- (sum_delta (fun r => W h a b x o y a0 a1 r) Hy), <- sumf_mul_r, <- sumf_mul_r. inn. rewrite element_nil. ring.
  Qed.

  (** Values of one left step, one right step. *)
  Definition d_left (L h a b : t) : t := d_tdot (d_tdot (d_tdot L a [0] [0]) h [0; 2] [0; 3]) (d_map rconj b) [0; 2] [0; 1].
  Definition d_right (E h a b : t) : t := d_tdot (d_tdot (d_tdot E a [0] [2]) h [0; 3] [2; 3]) (d_map rconj b) [3; 0] [1; 2].
  Lemma d_left_val L h a b x o y s s' x1 o1 y1 : dsh L = [x; o; y] -> dsh a = [x; s; x1] -> dsh h = [o; s'; o1; s] -> dsh b = [y; s'; y1] ->
    dsh (d_left L h a b) = [x1; o1; y1] /\
    forall i j k, dv (d_left L h a b) [i; j; k] = sum p < x, sum q < o, sum r < y, rmul (dv L [p; q; r]) (W h a b p q r i j k).
  Proof.
    intros HL Ha Hh Hb. unfold d_left. unfold d_tdot. cbn [dsh d_map dv]. rewrite HL, Ha, Hh, Hb. tred.
    split; [reflexivity|]. intros i j k. tred.
    unfold W, size. rewrite Ha, Hb. tred.
    transitivity (sum r < y, sum c < s', sum q < o, sum d < s, sum p < x,
      rmul (dv L [p; q; r]) (rmul (rmul (dv a [p; d; i]) (dv h [q; c; j; d])) (rconj (dv b [r; c; k])))).
    - rewrite sum_idxs_cons. inn. rewrite sum_idxs1. inn. tred. rewrite sum_idxs_cons, <- sumf_mul_r. inn.
      rewrite sum_idxs1, <- sumf_mul_r. inn. tred. rewrite sum_idxs1, <- sumf_mul_r, <- sumf_mul_r. inn. tred. ring.
    - pulln 4. inn. pulln 2. inn. inn. rewrite <- sumf_mul_l. etransitivity; [apply sumf_swap|]. inn. rewrite <- sumf_mul_l. reflexivity.
  Qed.
  Lemma d_right_val E h a b x o y s s' x1 o1 y1 : dsh E = [x1; o1; y1] -> dsh a = [x; s; x1] -> dsh h = [o; s'; o1; s] -> dsh b = [y; s'; y1] ->
    dsh (d_right E h a b) = [x; o; y] /\
    forall i j k, dv (d_right E h a b) [i; j; k] = sum p < x1, sum q < o1, sum r < y1, rmul (W h a b i j k p q r) (dv E [p; q; r]).
  Proof.
    intros HL Ha Hh Hb. unfold d_right. unfold d_tdot. cbn [dsh d_map dv]. rewrite HL, Ha, Hh, Hb. tred.
    split; [reflexivity|]. intros i j k. tred.
    unfold W, size. rewrite Ha, Hb. tred.
    transitivity (sum c < s', sum r < y1, sum q < o1, sum d < s, sum p < x1,
      rmul (rmul (rmul (dv a [i; d; p]) (dv h [j; c; q; d])) (rconj (dv b [k; c; r]))) (dv E [p; q; r])).
    - rewrite sum_idxs_cons. inn. rewrite sum_idxs1. inn. tred. rewrite sum_idxs_cons, <- sumf_mul_r. inn.
      rewrite sum_idxs1, <- sumf_mul_r. inn. tred. rewrite sum_idxs1, <- sumf_mul_r, <- sumf_mul_r. inn. tred. ring.
    - pulln 4. inn. pulln 2. inn. pulln 1. inn. rewrite <- sumf_mul_r. etransitivity; [apply sumf_swap|]. inn. rewrite <- sumf_mul_r. reflexivity.
  Qed.

  (** Values of one overlap step. *)
  Definition V (a b : t) (x y x' y' : nat) : R := sum s < size 1 a, rmul (dv a [x; s; x']) (rconj (dv b [y; s; y'])).
  Lemma overlap_cons (a b : t) la lb x y x' y' : size 1 a = size 1 b ->
    overlap (a :: la) (b :: lb) x y x' y' = sum x1 < size 2 a, sum y1 < size 2 b, rmul (V a b x y x1 y1) (overlap la lb x1 y1 x' y').
  Proof.
    intros _. unfold overlap, configs. cbn [map]. rewrite sum_idxs_cons.
    transitivity (sum s < size 1 a, sumf R (fun c => sum x1 < size 2 a, sum y1 < size 2 b,
        rmul (rmul (dv a [x; s; x1]) (rconj (dv b [y; s; y1]))) (rmul (amp la c x1 x') (rconj (amp lb c y1 y')))) (idxs (map (size 1) la))).
    - inn. inn. cbn [amp]. rewrite <- sumf_conj, sumf_prod. inn. inn. rewrite rconj_mul. ring.
    - pulln 2. inn. pulln 2. inn. unfold V. rewrite <- sumf_mul_r. inn. rewrite <- sumf_mul_l. reflexivity.
  Qed.
  Lemma overlap_nil x y x' y' : overlap (R := R) [] [] x y x' y' = rmul (if x =? x' then ro else rz) (if y =? y' then ro else rz).
  Proof. unfold overlap, configs. cbn. destruct (y =? y'); rewrite ?conj_ro, ?rconj_0; ring. Qed.
  Definition d_over (L a b : t) : t := d_tdot (d_tdot L a [0] [0]) (d_map rconj b) [0; 1] [0; 1].
  Lemma d_over_val L a b x y s x1 y1 : dsh L = [x; y] -> dsh a = [x; s; x1] -> dsh b = [y; s; y1] ->
    dsh (d_over L a b) = [x1; y1] /\
    forall i k, dv (d_over L a b) [i; k] = sum p < x, sum r < y, rmul (dv L [p; r]) (V a b p r i k).
  Proof.
    intros HL Ha Hb. unfold d_over. unfold d_tdot. cbn [dsh d_map dv]. rewrite HL, Ha, Hb. tred.
    split; [reflexivity|]. intros i k. tred. unfold V, size. rewrite Ha. tred.
    transitivity (sum r < y, sum c < s, sum p < x, rmul (dv L [p; r]) (rmul (dv a [p; c; i]) (rconj (dv b [r; c; k])))).
    - rewrite sum_idxs_cons. inn. rewrite sum_idxs1. inn. tred. rewrite sum_idxs1, <- sumf_mul_r. inn. tred. ring.
    - pulln 2. inn. inn. rewrite <- sumf_mul_l. reflexivity.
  Qed.

  (** The two-site Hamiltonian between two environments, closed with another pair of sites. *)
  Definition d_heff (L E h h' a a' : t) : t :=
    d_tdot (d_tdot (d_tdot L (d_tdot a a' [2] [0]) [0] [0]) (d_permute [0; 1; 3; 4; 2; 5] (d_tdot h h' [2] [0])) [0; 2; 3] [0; 4; 5]) E [1; 4] [0; 1].
  Ltac tred2 := cbv beta iota delta [length free gather seq filter map nth existsb Nat.eqb negb orb app firstn skipn coords slot index_of inv_perm]; cbn [dsh dv d_permute].
  Lemma d_heff_val L E h h' a a' b b' x o y x' o' y' s u s' u' m n k :
    dsh L = [x; o; y] -> dsh E = [x'; o'; y'] -> dsh h = [o; u; n; s] -> dsh h' = [n; u'; o'; s'] -> dsh a = [x; s; m] -> dsh a' = [m; s'; x'] ->
    dsh b = [y; u; k] -> dsh b' = [k; u'; y'] ->
    dsh (d_heff L E h h' a a') = [y; u; u'; y'] /\
    dv (d_tdot (d_heff L E h h' a a') (d_map rconj (d_tdot b b' [2] [0])) [0; 1; 2; 3] [0; 1; 2; 3]) [] =
    expectation [a; a'] [b; b'] [h; h'] L E.
  Proof.
    intros HL HE Hh Hh' Ha Ha' Hb Hb'. unfold d_heff, d_tdot. cbn [dsh d_map dv d_permute]. rewrite HL, HE, Hh, Hh', Ha, Ha', Hb, Hb'. tred2.
    split; [reflexivity|].
    transitivity (sum r < y, sum c < u, sum c' < u', sum r' < y', sum p' < x', sum q' < o', sum q < o, sum d < s, sum d' < s', sum p < x,
        sum i < m, sum j < n, sum l < k,
      rmul (rmul (dv L [p; q; r]) (dv E [p'; q'; r']))
        (rmul (rmul (rmul (dv a [p; d; i]) (dv h [q; c; j; d])) (rconj (dv b [r; c; l])))
              (rmul (rmul (dv a' [i; d'; p']) (dv h' [j; c'; q'; d'])) (rconj (dv b' [l; c'; r']))))).
    - rewrite sum_idxs_cons. inn. rewrite sum_idxs_cons. inn. rewrite sum_idxs_cons. inn. rewrite sum_idxs1. inn. tred2.
      rewrite sum_idxs_cons, <- sumf_mul_r. inn. rewrite sum_idxs1, <- sumf_mul_r. inn. tred2.
      rewrite sum_idxs_cons, <- sumf_mul_r, <- sumf_mul_r. inn. rewrite sum_idxs_cons, <- sumf_mul_r, <- sumf_mul_r. inn.
      rewrite sum_idxs1, <- sumf_mul_r, <- sumf_mul_r. inn. tred2.
      rewrite !sum_idxs1. tred2. rewrite <- !sumf_mul_r. inn. rewrite sum_idxs1. tred2. rewrite <- (sumf_mul_l R _ (dv L _)). rewrite <- !sumf_mul_r. inn.
      rewrite <- (sumf_mul_l R _ (rmul _ _)). rewrite <- !sumf_mul_r. inn.
      rewrite <- sumf_conj, <- sumf_mul_l. inn. rewrite rconj_mul. ring.
    - unfold expectation. unfold size at 1 2 3 4 5 6. rewrite HL, HE. tred2.
      pulln 9. inn. pulln 6. inn. inn. pulln 3. apply sumf_ext; intros p' Hp. pulln 3. apply sumf_ext; intros q' Hq. pulln 2. apply sumf_ext; intros r' Hr.
      change (In p' (seq 0 x')) in Hp. change (In q' (seq 0 o')) in Hq. change (In r' (seq 0 y')) in Hr. rewrite in_seq in Hp, Hq, Hr.
      rewrite element_cons by reflexivity. unfold size at 1 2 3. rewrite Ha, Hh, Hb. tred2.
      rewrite <- sumf_mul_l, <- sumf_mul_r. pulln 4. inn. rewrite <- sumf_mul_l, <- sumf_mul_r. pulln 4. inn.
      rewrite <- sumf_mul_l, <- sumf_mul_r. pulln 4. inn.
      rewrite element_one by (unfold size; rewrite ?Ha', ?Hh', ?Hb'; cbn [nth]; lia).
      unfold W, size. rewrite Ha, Hb, Ha', Hb'. tred2.
      rewrite sumf_prod, <- sumf_mul_l, <- sumf_mul_r. pulln 2. inn. rewrite <- sumf_mul_l, <- sumf_mul_r.
      pulln 2. inn. rewrite sumf_prod, <- sumf_mul_l, <- sumf_mul_r. inn. rewrite <- sumf_mul_l, <- sumf_mul_r. inn. ring.
  Qed.
End A.

(** Norms and energies of chains: isometries do not change norms, operators between environments. *)
From Verif Require Import Base Ring Index SpecIndex Dense IndexProofs BTensor BTensorArith Bcast Tensordot SpecTensordot Chain SpecChain ChainProofs ChainThms ChainInst ChainEnd SpecMove Num
  SpecLanczos LanczosVec LanczosProofs SpecSiteUpdate.
Set Implicit Arguments.

Section C.
  Variable N : numeric.
  Add Ring Rr : (ring_th N).
  Notation t := (dense N).
  Notation idk := (fun k : nat => k).
  Notation fit := (mps_fit (@dsh N) idk).
  Notation ofit := (mpo_fit (@dsh N) idk).
  Notation sizes := (map (@size N 1)).
  Tactic Notation "pulln" integer(n) := eapply eq_trans; [do n (apply pull; intro); reflexivity|cbn beta].
  Ltac inn := apply sumf_ext; intros ? _.

  (** * Norms *)
  Lemma prod_sum A B (f : A -> N) (g : B -> N) l m : rmul (rconj (sumf N f l)) (sumf N g m) = sumf N (fun a => sumf N (fun b => rmul (rconj (f a)) (g b)) m) l.
  Proof. rewrite <- sumf_conj, <- sumf_mul_r. inn. rewrite <- sumf_mul_l. reflexivity. Qed.
  Lemma sum_pick n (f : nat -> N) y : y < n -> sum x < n, rmul (if y =? x then ro else rz) (f x) = f y.
  Proof. intros H. rewrite <- (@sum_delta N n f y H). inn. rewrite Nat.eqb_sym. ring. Qed.
  Lemma conj_delta (b : bool) : rconj (if b then ro else rz) = if b then ro else rz :> N.
  Proof. destruct b; [apply conj1|apply conj0]. Qed.

  Lemma norm_left (A : t) l x s z y : dsh A = [x; s; z] -> left_isometry A -> chain_norm (A :: l) x y = chain_norm l z y.
  Proof.
    intros SA IA. unfold chain_norm, configs. cbn [map]. unfold size at 1. rewrite SA. cbn [nth].
    transitivity (sum b < y, sumf N (fun c => sum k < z, sum k' < z, rmul (rmul (rconj (amp l c k b)) (amp l c k' b)) (sum a < x, sum i < s, rmul (rconj (dv A [a; i; k])) (dv A [a; i; k'])))
      (idxs (sizes l))).
    - symmetry. transitivity (sum b < y, sumf N (fun c => sum k < z, sum k' < z, sum a < x, sum i < s, rmul (rmul (rconj (dv A [a; i; k])) (rconj (amp l c k b))) (rmul (dv A [a; i; k']) (amp l c k' b))) (idxs (sizes l))).
      + inn. inn. inn. inn. rewrite <- sumf_mul_l. inn. rewrite <- sumf_mul_l. inn. ring.
      + pulln 4. inn. inn. rewrite sum_idxs_cons. pulln 3. inn. inn. cbn [amp]. unfold size. rewrite SA. cbn [nth]. rewrite prod_sum. inn. inn. rewrite rconj_mul. reflexivity.
    - transitivity (sum b < y, sumf N (fun c => sum k < z, rmul (rconj (amp l c k b)) (amp l c k b)) (idxs (sizes l))).
      + apply sumf_ext; intros b _. apply sumf_ext; intros c _. apply sumf_ext. intros k Hk. apply in_seq in Hk. rewrite <- (@sum_pick z (fun k' => rmul (rconj (amp l c k b)) (amp l c k' b)) k) by lia.
        apply sumf_ext. intros k' Hk'. apply in_seq in Hk'. assert (I := IA k k'). unfold size in I. rewrite SA in I. cbn [nth] in I. rewrite I by lia. ring.
      + pulln 2. inn. reflexivity.
  Qed.
  Lemma norm_lefts pre l : forall x z y, fit pre x z -> Forall (@left_isometry N) pre -> chain_norm (pre ++ l) x y = chain_norm l z y.
  Proof.
    induction pre as [|A pre IH]; intros x z y F I; cbn [mps_fit] in F; [subst; reflexivity|]. destruct F as (s & k & SA & F). inversion I; subst.
    cbn [app]. rewrite (@norm_left A _ x s k y) by assumption. apply IH; assumption.
  Qed.
  (** Overlaps between two values of the left bond. *)
  Definition lov (l : list t) (x x' y : nat) : N := sum b < y, sumf N (fun c => rmul (rconj (amp l c x b)) (amp l c x' b)) (configs l).
  Lemma lov_norm l x y : chain_norm l x y = sum a < x, lov l a a y.
  Proof. reflexivity. Qed.
  Lemma lov_cons (A : t) l a a' s z y : size 1 A = s -> size 2 A = z -> lov (A :: l) a a' y = sum i < s, sum k < z, sum k' < z, rmul (rmul (rconj (dv A [a; i; k])) (dv A [a'; i; k'])) (lov l k k' y).
  Proof.
    intros Ss Sz. unfold lov, configs. cbn [map]. rewrite Ss.
    transitivity (sum i < s, sum b < y, sumf N (fun c => sum k < z, sum k' < z, rmul (rmul (rconj (dv A [a; i; k])) (dv A [a'; i; k'])) (rmul (rconj (amp l c k b)) (amp l c k' b))) (idxs (sizes l))).
    - symmetry. etransitivity; [apply sumf_swap|]. symmetry. inn. rewrite sum_idxs_cons. inn. inn. cbn [amp]. rewrite Sz, prod_sum. inn. inn. rewrite rconj_mul. ring.
    - inn. pulln 2. inn. pulln 2. inn. rewrite <- sumf_mul_l. inn. rewrite <- sumf_mul_l. reflexivity.
  Qed.
  Lemma lov_nil x x' y : x < y -> lov [] x x' y = if x =? x' then ro else rz.
  Proof.
    intros H. unfold lov, configs. cbn [map idxs sumf fold_right amp]. rewrite <- (@sum_pick y (fun b => if b =? x' then ro else rz) x H). inn. cbn. rewrite conj_delta, (Nat.eqb_sym x'). ring.
  Qed.
  Lemma lov_rights post : forall k k' z y, fit post z y -> Forall (@right_isometry N) post -> k < z -> k' < z -> lov post k k' y = if k =? k' then ro else rz.
  Proof.
    induction post as [|A post IH]; intros k k' z y F I Hk Hk'; cbn [mps_fit] in F; [subst; apply lov_nil; exact Hk|]. destruct F as (s & m & SA & F). inversion I as [|? ? IA I']; subst.
    rewrite (@lov_cons A post k k' s m y) by (unfold size; rewrite SA; reflexivity).
    assert (Q := IA k' k). unfold size in Q. rewrite SA in Q. cbn [nth] in Q. rewrite Nat.eqb_sym, <- Q by assumption. apply sumf_ext; intros x _. apply sumf_ext. intros j Hj. apply in_seq in Hj.
    rewrite <- (@sum_pick m (fun j' => rmul (dv A [k'; x; j']) (rconj (dv A [k; x; j]))) j) by lia. apply sumf_ext. intros j' Hj'. apply in_seq in Hj'. rewrite (IH j j' m y) by (assumption || lia). ring.
  Qed.
  Lemma lov_app l post : forall x z y a a', fit l x z -> fit post z y -> Forall (@right_isometry N) post -> a < x -> a' < x -> lov (l ++ post) a a' y = lov l a a' z.
  Proof.
    induction l as [|A l IH]; intros x z y a a' F F' I Ha Ha'; cbn [mps_fit] in F.
    - subst. cbn [app]. rewrite (@lov_rights post a a' z y), lov_nil by assumption. reflexivity.
    - destruct F as (s & m & SA & F). cbn [app]. rewrite !(@lov_cons A _ a a' s m) by (unfold size; rewrite SA; reflexivity). inn. apply sumf_ext. intros k Hk. apply sumf_ext. intros k' Hk'. apply in_seq in Hk, Hk'.
      rewrite (IH m z y) by (assumption || lia). reflexivity.
  Qed.
  Lemma norm_rights l post x z y : fit l x z -> fit post z y -> Forall (@right_isometry N) post -> chain_norm (l ++ post) x y = chain_norm l x z.
  Proof. intros F F' I. rewrite !lov_norm. apply sumf_ext. intros a Ha. apply in_seq in Ha. apply lov_app with x; assumption || lia. Qed.
  Lemma norm_pair (a a' : t) x p k p' y : dsh a = [x; p; k] -> dsh a' = [k; p'; y] -> chain_norm [a; a'] x y = sprod [x; p; p'; y] (pair_amp a a') (pair_amp a a').
  Proof.
    intros Sa Sa'. unfold chain_norm, sprod, configs. cbn [map]. unfold size. rewrite Sa, Sa'. cbn [nth]. rewrite sum_idxs_cons. apply sumf_ext. intros i _.
    transitivity (sum s < p, sum s' < p', sum j < y, rmul (rconj (amp [a; a'] [s; s'] i j)) (amp [a; a'] [s; s'] i j)).
    - transitivity (sum j < y, sum s < p, sum s' < p', rmul (rconj (amp [a; a'] [s; s'] i j)) (amp [a; a'] [s; s'] i j)); [inn; rewrite sum_idxs_cons; inn; rewrite sum_idxs1; reflexivity|]. pulln 1. inn. pulln 1. reflexivity.
    - rewrite sum_idxs_cons. inn. rewrite sum_idxs_cons. inn. rewrite sum_idxs1. inn. reflexivity.
  Qed.
  (** With isometries on both sides the norm is that of the two sites. *)
  Lemma norm_centre pre (a a' : t) post x z p k p' z' y : fit pre x z -> dsh a = [z; p; k] -> dsh a' = [k; p'; z'] -> fit post z' y -> Forall (@left_isometry N) pre -> Forall (@right_isometry N) post ->
    chain_norm (pre ++ [a; a'] ++ post) x y = sprod [z; p; p'; z'] (pair_amp a a') (pair_amp a a').
  Proof.
    intros F Sa Sa' F' I I'. rewrite (@norm_lefts pre _ x z y F I), (@norm_rights [a; a'] post z z' y); [apply norm_pair with k; assumption| |assumption..].
    exists p, k. split; [exact Sa|]. exists p', z'. split; [exact Sa'|reflexivity].
  Qed.
  Lemma pair_val (a a' : t) k y i0 i1 i2 i3 : size 2 a = k -> size 2 a' = y -> i3 < y -> pair_amp a a' [i0; i1; i2; i3] = sum c < k, rmul (dv a [i0; i1; c]) (dv a' [c; i2; i3]).
  Proof.
    intros Sk Sy H. unfold pair_amp. cbn [nth amp]. rewrite Sk, Sy. apply sumf_ext; intros x _. f_equal. apply (@sum_delta N y (fun m => dv a' [x; i2; m]) i3 H).
  Qed.

  (** * Operators *)
  Lemma expect_operator a b h (L E : t) : expectation a b h L E =
    sum x < size 0 L, sum y < size 2 L, sum x' < size 0 E, sum y' < size 2 E, sumf N (fun s => sumf N (fun s' =>
      rmul (operator h L E x s x' y s' y') (rmul (amp a s x x') (rconj (amp b s' y y')))) (configs b)) (configs a).
  Proof.
    unfold expectation, element, operator. apply sumf_ext; intros x _.
    transitivity (sum o < size 1 L, sum y < size 2 L, sum x' < size 0 E, sum o' < size 1 E, sum y' < size 2 E, sumf N (fun s => sumf N (fun s' =>
      rmul (rmul (rmul (dv L [x; o; y]) (op_amp h s' s o o')) (dv E [x'; o'; y'])) (rmul (amp a s x x') (rconj (amp b s' y y')))) (configs b)) (configs a)).
    - inn. inn. inn. inn. inn. rewrite <- sumf_mul_l, <- sumf_mul_r. inn. rewrite <- sumf_mul_l, <- sumf_mul_r. inn. ring.
    - pulln 1. inn. pulln 1. inn. pulln 2. inn. pulln 2. inn. pulln 2. inn. rewrite <- sumf_mul_r. inn. rewrite <- sumf_mul_r. reflexivity.
  Qed.
  Lemma expect_conj a b h (L E : t) x o x' o' ps : dsh L = [x; o; x] -> dsh E = [x'; o'; x'] -> sizes a = ps -> sizes b = ps -> hermitian_chain h L E ps ->
    rconj (expectation a b h L E) = expectation b a h L E.
  Proof.
    intros SL SE Sa Sb HH. rewrite !expect_operator. unfold configs. rewrite Sa, Sb. replace (size 2 L) with (size 0 L) by (unfold size; rewrite SL; reflexivity). replace (size 2 E) with (size 0 E) by (unfold size; rewrite SE; reflexivity).
    transitivity (sum i < size 0 L, sum j < size 0 L, sum i' < size 0 E, sum j' < size 0 E, sumf N (fun s => sumf N (fun s' =>
      rmul (operator h L E j s' j' i s i') (rmul (rconj (amp a s i i')) (amp b s' j j'))) (idxs ps)) (idxs ps)).
    - rewrite <- sumf_conj. apply sumf_ext. intros i Hi. rewrite <- sumf_conj. apply sumf_ext. intros j Hj. rewrite <- sumf_conj. apply sumf_ext. intros i' Hi'. rewrite <- sumf_conj. apply sumf_ext. intros j' Hj'.
      rewrite <- sumf_conj. apply sumf_ext. intros s Hs. rewrite <- sumf_conj. apply sumf_ext. intros s' Hs'. apply in_seq in Hi, Hj, Hi', Hj'. apply idxs_In in Hs, Hs'.
      rewrite !rconj_mul, rconj_conj, HH by (assumption || lia). reflexivity.
    - rewrite sumf_swap. inn. inn. rewrite sumf_swap. inn. inn. rewrite sumf_swap. inn. inn. ring.
  Qed.
End C.

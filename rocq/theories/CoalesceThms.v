(** The compression of an operator chain keeps the operator. *)
From Verif Require Import Base Quantity QuantityProofs Ring Index SpecIndex IndexProofs Dense BTensor SpecBTensor BTensorArith Tensordot SpecTensordot Bcast Chain SpecChain ChainProofs ChainInst
  SpecSector SpecSvd Truncate SpecTruncate BTrunc SpecBTrunc Coalesce SpecCoalesce CoalesceProofs.
Set Implicit Arguments.

Section D.
  Variable R : ring.
  Add Ring Rring : (ring_th R).
  Notation t := (dense R).
  Lemma sumf_nonzero n (f : nat -> R) : (sum c < n, f c) <> rz -> exists c, c < n /\ f c <> rz.
  Proof.
    intros H. assert (E : forall l, (exists c, In c l /\ f c <> rz) \/ forall c, In c l -> f c = rz).
    { induction l as [|a l IH]; [right; intros c []|]. destruct IH as [(c & H1 & H2)|IH]; [left; exists c; cbn; tauto|].
      destruct (reqb (f a) rz) eqn:E; [apply reqb_spec in E; right; intros c [<-|Hc]; auto|]. left. exists a. split; [left; reflexivity|]. intros E'. apply reqb_spec in E'. congruence. }
    destruct (E (seq 0 n)) as [(c & H1 & H2)|E']; [exists c; apply in_seq in H1; split; [lia|exact H2]|]. exfalso. apply H, sumf_zero. exact E'.
  Qed.
  Lemma op_amp_replace (A B A' B' : t) l xs s k s' p z p' k' : dsh A = [xs; s; k; s'] -> dsh B = [k; p; z; p'] -> dsh A' = [xs; s; k'; s'] -> dsh B' = [k'; p; z; p'] ->
    (forall a i j i2 b j2, a < xs -> i < s -> j < s' -> (sum c < k', rmul (dv A' [a; i; c; j]) (dv B' [c; i2; b; j2])) = sum c < k, rmul (dv A [a; i; c; j]) (dv B [c; i2; b; j2])) ->
    forall i i2 out j j2 inn a b, a < xs -> i < s -> j < s' -> op_amp (A' :: B' :: l) (i :: i2 :: out) (j :: j2 :: inn) a b = op_amp (A :: B :: l) (i :: i2 :: out) (j :: j2 :: inn) a b.
  Proof.
    intros EA EB EA' EB' H i i2 out j j2 inn a b Ha Hi Hj. cbn [op_amp]. unfold size. rewrite EA, EB, EA', EB'. cbn [nth].
    assert (SW : forall (X Y : t) n, (sum c0 < n, rmul (dv X [a; i; c0; j]) (sum c1 < z, rmul (dv Y [c0; i2; c1; j2]) (op_amp l out inn c1 b))) =
          sum c1 < z, rmul (sum c0 < n, rmul (dv X [a; i; c0; j]) (dv Y [c0; i2; c1; j2])) (op_amp l out inn c1 b)).
    { intros X Y n. transitivity (sum c0 < n, sum c1 < z, rmul (rmul (dv X [a; i; c0; j]) (dv Y [c0; i2; c1; j2])) (op_amp l out inn c1 b)).
      - apply sumf_ext. intros c0 _. rewrite <- sumf_mul_l. apply sumf_ext. intros c1 _. ring.
      - rewrite sumf_swap. apply sumf_ext. intros c1 _. rewrite <- sumf_mul_r. reflexivity. }
    rewrite !SW. apply sumf_ext. intros c1 _. rewrite H by assumption. reflexivity.
  Qed.
End D.

Section B.
  Variable G : abgroup.
  Variable R : ring.
  Add Ring Rring' : (ring_th R).
  Variable imax : nat.
  Notation bt := (btensor G R).
  Notation tl := (@blegs G R).
  Notation dual := (@bdual G).
  Notation den := (@stored G R imax).
  Notation bsz := (@bsz G).
  Variable W : weights.
  Variable gtb : R -> R -> bool.
  Variable lower : R -> R.
  Variable wt : R -> W.
  Hypothesis HO : total_order gtb.
  Variable dsvd : dense R -> dense R * dense R * dense R.
  Variable thr : W.
  Hypothesis exact_cut : forall l, wgtb (total wt l) thr = true <-> exists x, In x l /\ x <> rz.
  Hypothesis low : forall x, gtb x rz = true -> gtb x (lower x) = true.
  Hypothesis H_svd : forall M, (exists m n, dsh M = [m; n]) -> thin M (dsvd M) /\ descending gtb (entries (snd (fst (dsvd M)))) /\ forall x, In x (entries (snd (fst (dsvd M)))) -> gtb rz x = false.
  Notation loop := (coalesce_loop (fun A s => svd_tol gtb lower wt dsvd A s thr) b_mul_ (tensordot imax) (@conj G R) b_perm).

  Lemma loop_ok rest : forall A DA Drest x y, Forall2 den (A :: rest) (DA :: Drest) -> op_chain tl dual (A :: rest) x y -> bonds_reached (A :: rest) (DA :: Drest) (bsz x) ->
    (forall i B, nth_error (A :: rest) i = Some B -> S i < length (A :: rest) -> (Z.of_nat (bsz (right_leg B)) <= 2 ^ 63)%Z) ->
    exists sites' Ds', loop A rest = Some (Ok sites') /\ Forall2 den sites' Ds' /\ op_chain tl dual sites' x y /\ same_operator (DA :: Drest) Ds' (bsz x) (bsz y) /\
      map (@b_rule G R) sites' = map (@b_rule G R) (A :: rest) /\ map (@phys_legs G R) sites' = map (@phys_legs G R) (A :: rest) /\ compressed (A :: rest) sites'.
  Proof.
    induction rest as [|B rest IH]; intros A DA Drest x y HF HC HR HZ.
    - inversion HF as [|? ? ? ? H1 H2]; subst. inversion H2; subst. exists [A], [DA]. split; [reflexivity|]. split; [constructor; [exact H1|constructor]|]. split; [exact HC|].
      split; [repeat split|]. split; [reflexivity|]. split; [reflexivity|]. intros i X X' _ _ Hi. cbn in Hi. lia.
    - inversion HF as [|? ? ? ? HA HF1]; subst. inversion HF1 as [|? DB ? Dr HB HF2]; subst.
      destruct HC as (p & k & p' & EA & HC). pose proof HC as (p2 & k2 & p2' & EB & HC2).
      assert (RA : right_leg A = k) by (unfold right_leg; rewrite EA; reflexivity). assert (RB : right_leg B = k2) by (unfold right_leg; rewrite EB; reflexivity).
      assert (HB1 : bond_reached [DA] (bsz x) k) by (rewrite <- RA; apply (HR 0 A eq_refl); cbn; lia).
      assert (HZ1 : (Z.of_nat (bsz k) <= 2 ^ 63)%Z) by (rewrite <- RA; apply (HZ 0 A eq_refl); cbn; lia).
      destruct (@step_ok G R imax W gtb lower wt HO dsvd thr exact_cut low H_svd A B DA DB x p k p' p2 k2 p2' HA HB EA EB HB1 HZ1) as (A' & B' & DA' & DB' & k' & ES & HA' & HB' & LA' & LB' & RA' & RB' & ND & N1 & N2 & HS).
      pose proof (stored_shape HA) as SA. pose proof (stored_shape HB) as SB. pose proof (stored_shape HA') as SA'. pose proof (stored_shape HB') as SB'.
      rewrite EA in SA. rewrite EB in SB. rewrite LA' in SA'. rewrite LB' in SB'. cbn [map] in SA, SB, SA', SB'. rewrite !bdual_size in *.
      assert (RRB : right_leg B' = right_leg B) by (rewrite RB; unfold right_leg; rewrite LB'; reflexivity).
      assert (NE : forall i C, nth_error (B' :: rest) i = Some C -> exists C0, nth_error (B :: rest) i = Some C0 /\ right_leg C0 = right_leg C).
      { intros [|i] C HCi; cbn in HCi; [injection HCi as <-; exists B; auto|exists C; auto]. }
      destruct (IH B' DB' Dr k' y) as (sites' & Ds' & EL & FL & CL & OL & RL & QL & PL).
      + constructor; [exact HB'|exact HF2].
      + exists p2, k2, p2'. split; [exact LB'|exact HC2].
      + intros i C HCi Hi. destruct (NE i C HCi) as (C0 & HC0 & E0). destruct (HR (S i) C0 HC0) as (K1 & K2); [cbn in Hi |- *; lia|]. rewrite E0 in K1, K2. split; [exact K1|].
        intros b Hb. destruct (K2 b Hb) as (out & inn & a & m & Ho & Hn & Ha & Hm & HN). cbn [firstn map] in Ho, Hn, HN |- *.
        destruct out as [|o1 [|o2 out]]; try discriminate; [cbn in Ho; rewrite andb_false_r in Ho; discriminate|]. destruct inn as [|i1 [|i2 inn]]; try discriminate; [cbn in Hn; rewrite andb_false_r in Hn; discriminate|].
        cbn [in_range] in Ho, Hn. rewrite !andb_true_iff, !Nat.ltb_lt in Ho, Hn. unfold size at 1 2 in Ho. unfold size at 1 2 in Hn. rewrite SA, SB in Ho, Hn. cbn [nth] in Ho, Hn. destruct Ho as (O1 & O2 & O3). destruct Hn as (I1 & I2 & I3).
        rewrite <- (@op_amp_replace R DA DB DA' DB' (firstn i Dr) _ _ _ _ _ _ _ _ SA SB SA' SB' HS) in HN by assumption. change (op_amp (DA' :: DB' :: firstn i Dr) (o1 :: o2 :: out) (i1 :: i2 :: inn) a m) with (sum c < size 2 DA', rmul (dv DA' [a; o1; c; i1]) (op_amp (DB' :: firstn i Dr) (o2 :: out) (i2 :: inn) c m)) in HN.
        apply sumf_nonzero in HN as (c & Hc & HN). unfold size in Hc. rewrite SA' in Hc. cbn [nth] in Hc.
        exists (o2 :: out), (i2 :: inn), c, m. split; [|split; [|split; [exact Hc|split; [exact Hm|]]]].
        * cbn [in_range]. rewrite O3, andb_true_r. apply Nat.ltb_lt. unfold size. rewrite SB'. exact O2.
        * cbn [in_range]. rewrite I3, andb_true_r. apply Nat.ltb_lt. unfold size. rewrite SB'. exact I2.
        * intros E. apply HN. rewrite E. ring.
      + intros i C HCi Hi. destruct (NE i C HCi) as (C0 & HC0 & E0). rewrite <- E0. apply (HZ (S i) C0 HC0). cbn in Hi |- *. lia.
      + exists (A' :: sites'), (DA' :: Ds'). split; [cbn [coalesce_loop]; rewrite ES; cbn [obind fst snd]; rewrite EL; reflexivity|]. split; [constructor; assumption|].
        split; [exists p, k', p'; auto|]. split; [|split; [|split]].
        * destruct OL as (O1 & O2 & O3). cbn [map] in O1, O2, O3. split; [|split].
          -- cbn [map]. rewrite O1. unfold size at 1 2 4 5. rewrite SA, SB, SA', SB'. reflexivity.
          -- cbn [map]. rewrite O2. unfold size at 1 2 4 5. rewrite SA, SB, SA', SB'. reflexivity.
          -- intros out inn a b Ho Hn Ha Hb. cbn [map] in Ho, Hn.
             destruct out as [|o1 [|o2 out]]; try discriminate; [cbn in Ho; rewrite andb_false_r in Ho; discriminate|]. destruct inn as [|i1 [|i2 inn]]; try discriminate; [cbn in Hn; rewrite andb_false_r in Hn; discriminate|].
             cbn [in_range] in Ho, Hn. rewrite !andb_true_iff, !Nat.ltb_lt in Ho, Hn. unfold size at 1 2 in Ho. unfold size at 1 2 in Hn. rewrite SA, SB in Ho, Hn. cbn [nth] in Ho, Hn. destruct Ho as (P1 & P2 & P3). destruct Hn as (I1 & I2 & I3).
             rewrite <- (@op_amp_replace R DA DB DA' DB' Dr _ _ _ _ _ _ _ _ SA SB SA' SB' HS) by assumption.
             change (op_amp (DA' :: Ds') (o1 :: o2 :: out) (i1 :: i2 :: inn) a b) with (sum c < size 2 DA', rmul (dv DA' [a; o1; c; i1]) (op_amp Ds' (o2 :: out) (i2 :: inn) c b)).
             change (op_amp (DA' :: DB' :: Dr) (o1 :: o2 :: out) (i1 :: i2 :: inn) a b) with (sum c < size 2 DA', rmul (dv DA' [a; o1; c; i1]) (op_amp (DB' :: Dr) (o2 :: out) (i2 :: inn) c b)).
             apply sumf_ext. intros c Hc. apply in_seq in Hc. unfold size in Hc. rewrite SA' in Hc. cbn [nth] in Hc. rewrite O3; [reflexivity| | |lia|exact Hb].
             ++ cbn [in_range]. rewrite P3, andb_true_r. apply Nat.ltb_lt. unfold size. rewrite SB'. exact P2.
             ++ cbn [in_range]. rewrite I3, andb_true_r. apply Nat.ltb_lt. unfold size. rewrite SB'. exact I2.
        * cbn [map] in RL |- *. rewrite RL, RA', RB'. reflexivity.
        * cbn [map] in QL |- *. rewrite QL. unfold phys_legs at 1 2 4 5. rewrite EA, EB, LA', LB'. reflexivity.
        * intros [|i] X X' HX HX' Hi; cbn in HX, HX'.
          -- injection HX as <-. injection HX' as <-. rewrite RA. unfold right_leg. rewrite LA'. cbn. auto.
          -- destruct i as [|i].
             ++ cbn in HX. injection HX as <-. rewrite <- RRB. apply (PL 0 B' X' eq_refl HX'). cbn in Hi |- *. lia.
             ++ apply (PL (S i) X X' HX HX'). cbn in Hi |- *. lia.
  Qed.
  Theorem coalesce_ok sites Ds x y : Forall2 den sites Ds -> op_chain tl dual sites x y -> sites <> [] -> bonds_reached sites Ds (bsz x) ->
    (forall i B, nth_error sites i = Some B -> S i < length sites -> (Z.of_nat (bsz (right_leg B)) <= 2 ^ 63)%Z) ->
    exists sites' Ds', coalesce imax gtb lower wt dsvd sites thr = Some (Ok sites') /\ Forall2 den sites' Ds' /\ op_chain tl dual sites' x y /\ same_operator Ds Ds' (bsz x) (bsz y) /\
      map (@b_rule G R) sites' = map (@b_rule G R) sites /\ map (@phys_legs G R) sites' = map (@phys_legs G R) sites /\ compressed sites sites'.
  Proof.
    intros HF HC NE HR HZ. destruct sites as [|A rest]; [congruence|]. destruct Ds as [|DA Drest]; [inversion HF|]. exact (@loop_ok rest A DA Drest x y HF HC HR HZ).
  Qed.
End B.

(** The block eigenvalue decomposition of Hermitian tensors. *)
From Verif Require Import Base Quantity QuantityProofs FlatMap SpecFlatMap FlatMapProofs Ring Index SpecIndex Dense IndexProofs BTensor SpecBTensor LegsProofs
  BTensorProofs BTensorThms BTensorThms2 BTensorArith ArithProofs Tensordot SpecTensordot TensordotProofs TensordotThms Reshape SpecReshape ReshapeProofs ReshapeThms View SpecView ViewProofs ViewThms
  Chain SpecChain ChainProofs ChainInst SpecSector SectorThms SpecSvd Edges SpecEdges EdgesProofs EdgesBlock BmmThms BSvd SvdPieces SvdProofs SvdThms SvdMain SvdDense Truncate BTrunc BEigh SpecEigh EighPieces EighLoop EighMatrix.
From Coq Require Import Permutation.
Set Implicit Arguments.

Section E.
  Variable G : abgroup.
  Variable R : ring.
  Notation t := (btensor G R).
  Notation "'e'" := (qe G).
  Notation stores := SpecReshape.stored.
  Notation sizes L := (map (@bsz G) L).
  Variable deigh : bool -> dense R -> dense R * dense R.

  Lemma carried_range (L : list (list nat * list G)) i q : index_carries L i q -> in_range (sizes L) i = true.
  Proof.
    intros (H1 & cs & H2 & H3 & _). clear q. revert i cs H1 H2 H3. induction L as [|l L IH]; intros [|x i] [|c cs] H1 H2 H3; try discriminate; [reflexivity|].
    cbn [map]. apply in_range_cons. split.
    - destruct (H3 0 ltac:(cbn; lia)) as (b & o & (A1 & A2 & A3) & _). cbn [nth] in *. unfold bsz. rewrite A3. revert b A1 A2 A3. generalize (fst l). clear. intros l. revert x. induction l as [|n l IH]; intros x [|b] A1 A2 A3; cbn in A1, A2; try lia.
      + cbn. lia.
      + specialize (IH (x - n) b ltac:(lia) A2). cbn [firstn] in *. change (sum_list (n :: l)) with (n + sum_list l). change (sum_list (n :: firstn b l)) with (n + sum_list (firstn b l)) in *. lia.
    - apply (IH i cs); [cbn in H1; lia|cbn in H2; lia|]. intros d Hd. apply (H3 (S d)). cbn. lia.
  Qed.
  Lemma square_first s (T : t) L : square s T L -> firstn s (blegs T) = L /\ skipn s (blegs T) = map (@bdual G) L.
  Proof. intros (<- & -> & _). rewrite firstn_app, skipn_app, Nat.sub_diag, firstn_all, skipn_all. cbn. rewrite app_nil_r. auto. Qed.
  Lemma principal_hermitian s (T : t) L D M : square s T L -> hermitian (sizes L) D -> principal s T D M -> hermitian_matrix M.
  Proof.
    intros SQ HD (n & f & q & SM & C1 & _ & E1). exists n. split; [exact SM|]. intros i j Hi Hj. rewrite !E1 by assumption. rewrite (proj1 (square_first SQ)) in C1. apply HD; eapply carried_range; apply C1; assumption.
  Qed.
  Definition correct s (T : t) (D : dense R) (upper : bool) : Prop := forall M, principal s T D M -> hermitian_matrix M -> eigenpairs M (deigh upper M).
  Section C.
    Variables (s : nat) (T : t) (L : list (list nat * list G)) (D : dense R) (upper : bool).
    Hypothesis SQ : square s T L.
    Hypothesis HD : hermitian (sizes L) D.
    Hypothesis HC : correct s T D upper.
    Lemma twice_ok M : principal s T D M -> thin M (twice deigh upper M) /\ isometries M (twice deigh upper M) /\ real_entries (snd (fst (twice deigh upper M))).
    Proof.
      intros HP. pose proof (HC HP (principal_hermitian SQ HD HP)) as HE. unfold twice. destruct (deigh upper M) as (ev, U). cbn in HE |- *. destruct HP as (n & _ & _ & SM & _). destruct (HE n SM) as (H1 & H2 & H3).
      split; [|split; [|exact H3]]; intros m m' E; rewrite SM in E; injection E as <- <-; rewrite Nat.min_id; auto.
    Qed.
    Lemma conclude U d k : decomposition s T D U d U k -> isometric s T U U k -> (forall Dd, dense_form d Dd -> real_entries Dd) -> eigen_decomposition s T D d U k.
    Proof.
      intros (A1 & A2 & _ & A3 & A4 & _ & _ & A5 & _ & A6 & A7 & _ & A8 & A9 & _ & DU & Dd & DV & F1 & F2 & F3 & F) HI HR. destruct (square_first SQ) as (S1 & S2). pose proof (proj2 (proj2 SQ)) as RT.
      split; [exact A2|]. split; [exact A1|]. split; [exact A3|]. split; [exact A4|]. split; [exact A5|]. split; [exact A6|]. split; [exact A7|]. split; [congruence|]. split; [exact A9|].
      exists Dd, DU. split; [exact F2|]. split; [exact F1|]. split; [apply HR; exact F2|]. destruct (HI DU DU F1 F1) as (O1 & _). split; [|exact O1].
      rewrite S1, S2 in F. rewrite S1. assert (ES : sizes (map (@bdual G) L) = sizes L) by (rewrite map_map; apply map_ext; intros; reflexivity). rewrite ES in F.
      destruct F as (f1 & f2 & f3 & f4). split; [exact f1|]. split; [exact f2|]. split; [exact f1|]. intros i j Hi Hj. rewrite (f4 i j Hi Hj). apply sumf_ext. intros c Hc. apply in_seq in Hc.
      assert (dv DV (j ++ [c]) = dv DU (j ++ [c])) as ->; [|reflexivity]. apply (dense_form_unique (proj1 A1) F3 F1). rewrite f3. rewrite (IndexProofs.in_range_app _ _ _ _ (in_range_length _ _ Hj)), Hj. cbn. rewrite andb_true_r. apply Nat.ltb_lt. lia.
    Qed.
  End C.

  (** The matrix case. *)
  Theorem eigh_matrix (T : t) L D upper : valid T -> nonempty T -> square 1 T L -> dense_form T D -> hermitian (sizes L) D -> symmetric_blocks 1 T -> columns_in_order 1 T -> first_sections 1 T ->
    qop G (first_quantity 1 T) (first_quantity 1 T) = e -> correct 1 T D upper ->
    exists d U k, eigh deigh T upper = Ok (d, U) /\ eigen_decomposition 1 T D d U k /\ section_eigenvalues 1 T D (fun M => fst (deigh upper M)) d (length (fst k)) /\ (diagonal_blocks 1 T -> bsz G k = prod_list (sizes L)).
  Proof.
    intros V N SQ FD HD SB CO FS FQ HC. pose proof SQ as (LL & BT & RT). destruct L as [|(l, qs) [|]]; try discriminate. cbn in BT.
    destruct (legs_both V) as (HL & HQ). rewrite BT in HL, HQ. cbn in HL, HQ.
    assert (RK : b_rank T = 2) by (rewrite <- (legs_length (proj1 V)), HL; reflexivity).
    pose proof (qlegs_lens (proj1 V)) as NQ. rewrite <- (legs_lens (proj1 V)), HL, HQ in NQ. cbn in NQ. injection NQ as N1 _.
    assert (SYM : forall i j, stores T [i; j] -> stores T [j; i]) by (intros i j H; apply (SB [i] [j] eq_refl eq_refl H)).
    assert (ORD : forall i j i' j', stores T [i; j] -> stores T [i'; j'] -> j' < j -> nth j' (map (qinv G) qs) e = nth j (map (qinv G) qs) e -> exists i0, i0 <= i /\ stores T [i0; j']).
    { intros i j i' j' H1 H2 HLt EQ. destruct (CO [i] [j] [i'] [j'] eq_refl eq_refl eq_refl eq_refl H1 H2) as ([|i0 [|]] & LI & HO & H3); try discriminate.
      - cbn. rewrite (proj2 (Nat.ltb_lt _ _) HLt). reflexivity.
      - unfold block_quantity. rewrite HQ. cbn. rewrite EQ. reflexivity.
      - exists i0. split; [|exact H3]. destruct HO as [[= ->]|HO]; [lia|]. cbn in HO. rewrite andb_false_r, orb_false_r in HO. apply Nat.ltb_lt in HO. lia. }
    assert (HF : 0 < nth 0 l 0) by (apply FS; rewrite HL; left; reflexivity).
    assert (H0 : qop G (nth 0 qs e) (nth 0 qs e) = e).
    { unfold first_quantity in FQ. rewrite HQ in FQ. cbn in FQ. rewrite qop_e_r, (nth_inv G qs 0), <- qinv_op in FQ. rewrite <- (qinv_inv G (qop G _ _)), FQ. apply qinv_e. }
    assert (PP : forall M, taken T M -> principal 1 T D M).
    { apply (@taken_principal G R T l qs V HL HQ RT SYM ORD T D 1 (fun r x => [sum_list (firstn r l) + x])).
      - intros r x Hr Hx. rewrite BT. cbn [firstn]. pose proof (@index_place G [l] [qs] [r] [x]) as P. cbn in P. rewrite N1, (proj2 (Nat.ltb_lt _ _) Hr), (proj2 (Nat.ltb_lt _ _) Hx), qop_e_r in P. apply P; reflexivity.
      - intros r x r' x' H1 H2 H3 H4 E. injection E as E. assert (Z1 : located l (sum_list (firstn r l) + x) r x) by (split; auto). assert (Z2 : located l (sum_list (firstn r l) + x) r' x') by (split; [|split]; auto).
        apply find_section_unique in Z1, Z2. rewrite Z1 in Z2. injection Z2 as -> ->. auto.
      - intros r x c y H1 H2 H3 H4. rewrite <- (proj2 FD [r; c] [x; y]).
        + rewrite HL. reflexivity.
        + rewrite <- (legs_lens (proj1 V)), HL. cbn. rewrite (proj2 (Nat.ltb_lt _ _) H1), (proj2 (Nat.ltb_lt _ _) H3). reflexivity.
        + rewrite HL. cbn. rewrite (proj2 (Nat.ltb_lt _ _) H2), (proj2 (Nat.ltb_lt _ _) H4). reflexivity. }
    destruct (@svd_matrix_pieces G R (twice deigh upper) T D V N RK FD (fun M _ H => proj1 (twice_ok SQ HD HC (PP M H)))) as (U & d & W & k & E & DC & HI & HR & HV).
    specialize (HI (fun M _ H => proj1 (proj2 (twice_ok SQ HD HC (PP M H))))). specialize (HR (fun M _ H => proj2 (proj2 (twice_ok SQ HD HC (PP M H))))).
    pose proof DC as (VU & _ & VW & _ & _ & _ & _ & _ & _ & BU & _ & BW & RU & _ & RW & _). rewrite BT in BU, BW. cbn in BU, BW. rewrite RT in RU.
    destruct (@eigh_svd G R T l qs V HL HQ RT SYM ORD N HF H0 deigh upper U d W k E VU VW BU BW RU RW) as (EE & -> & TOT).
    exists d, U, k. split; [exact EE|]. split; [apply (conclude SQ DC HI HR)|]. split.
    2:{ intros DB. cbn. rewrite Nat.mul_1_r. apply TOT. intros i Hi. apply (DB [i] eq_refl). split.
      - rewrite <- (legs_lens (proj1 V)), HL. cbn. rewrite (proj2 (Nat.ltb_lt _ _) Hi). reflexivity.
      - rewrite HQ, RT. cbn. rewrite nth_inv, qop_e_r, qop_inv_r. reflexivity. }
    intros c Hc. destruct (HV c Hc) as (M & _ & HT & HS & HIn). exists M. split; [apply PP; exact HT|]. split; [exact HS|].
    unfold twice in HIn. destruct (deigh upper M). exact HIn.
  Qed.
End E.

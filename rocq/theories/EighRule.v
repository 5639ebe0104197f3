(** When the block eigenvalue decomposition throws, and tensors that store all their blocks. *)
From Verif Require Import Base Quantity QuantityProofs FlatMap SpecFlatMap FlatMapProofs Ring Index SpecIndex Dense IndexProofs BTensor SpecBTensor LegsProofs
  BTensorProofs BTensorThms BTensorThms2 BTensorArith ArithProofs Tensordot SpecTensordot TensordotProofs TensordotThms Reshape SpecReshape ReshapeProofs ReshapeThms View SpecView ViewProofs ViewThms
  Chain SpecChain ChainProofs ChainInst SpecSector SectorThms SpecSvd Edges SpecEdges EdgesProofs EdgesBlock BmmThms BSvd SvdPieces SvdProofs SvdThms SvdMain SvdDense Truncate BTrunc BTruncEx BEigh SpecEigh EighPieces EighLoop EighMatrix EighThms EighSplit.
Set Implicit Arguments.

Section R.
  Variable G : abgroup.
  Variable R : ring.
  Notation t := (btensor G R).
  Notation "'e'" := (qe G).
  Notation stores := SpecReshape.stored.
  Theorem eigh_rejects deigh upper (T : t) : valid T -> nonempty T -> b_rank T = 2 -> b_blocks T <> [] -> first_sections 1 T -> qop G (first_quantity 1 T) (first_quantity 1 T) <> e -> eigh deigh T upper = Throw InvalidArgument.
  Proof.
    intros V N R2 NB FS FQ. pose proof (legs_length (proj1 V)) as LL. pose proof (qlegs_length (proj1 V)) as LQ. rewrite R2 in LL, LQ.
    destruct (legs T) as [|lr [|lc [|]]] eqn:HL; try discriminate. destruct (qlegs T) as [|qr [|qc [|]]] eqn:HQ; try discriminate.
    unfold first_quantity in FQ. rewrite HQ in FQ. cbn in FQ. rewrite !qop_e_r in FQ. assert (H0 : 0 < nth 0 lc 0) by (apply FS; rewrite HL; left; reflexivity).
    destruct (compact_ok V HL HQ) as (ps & ks & EC & ND & HP & HS). destruct (eigh_shapes_ok V HL HQ N H0 HP) as (d & U & ES & (VU & BU & LU & QU & RU) & _).
    unfold eigh. rewrite EC. cbn [rbind]. rewrite ES. cbn [rbind].
    assert (EA : allocate U d ps = Throw InvalidArgument).
    { destruct HP as [|k ((M, rows), cols) ks ps (m & n & _ & _ & _ & KR & _ & (i0 & _ & Hi0 & _) & _) HP].
      - exfalso. destruct (b_blocks T) as [|(b, v) bs] eqn:EB; [congruence|]. assert (IB : In (b, v) (b_blocks T)) by (rewrite EB; left; reflexivity). destruct (@stored_pair G R T lr lc qr qc V HL HQ _ _ IB) as (i & j & -> & _). apply (HS i j). exists v. exact IB.
      - destruct rows as [|(r, sl) rows]; [destruct Hi0|]. destruct (proj1 (KR r) (or_introl eq_refl)) as (j & (v & Hv) & K1 & K2).
        destruct (@stored_pair G R T lr lc qr qc V HL HQ _ _ Hv) as (i' & j' & EQ & Hi & _ & HE & _). injection EQ as <- <-.
        unfold allocate. cbn [rfold]. unfold may_store at 1. rewrite rule_test_spec; [|apply VU|].
        + replace (allowedb U [r; 0]) with false; [reflexivity|]. symmetry. apply not_true_iff_false. intros AL. apply qeqb_spec in AL. rewrite QU, RU in AL. cbn in AL. rewrite qop_e_r, K1, <- K2 in AL. rewrite <- K1, HE in AL.
          apply FQ. assert (qop G (qinv G (nth 0 qc e)) (qinv G (nth 0 qc e)) = e) as EQ.
          { apply (qop_cancel_l G (b_rule T)). rewrite qop_e_r. symmetry. exact AL. }
          rewrite <- qinv_op in EQ. rewrite <- (qinv_inv G (qop G _ _)), EQ. apply qinv_e.
        + rewrite <- (legs_lens (proj1 VU)), LU. cbn. rewrite (proj2 (Nat.ltb_lt _ _) Hi). reflexivity. }
    rewrite EA. reflexivity.
  Qed.

  Lemma all_blocks_symmetric s (T : t) L : valid T -> nonempty T -> 0 < s -> square s T L -> all_blocks T -> symmetric_blocks s T /\ columns_in_order s T.
  Proof.
    intros V N Hs SQ AB. destruct (@sq_legs G R T s L V SQ Hs) as (LT & QT & len1 & qlen1 & NQ1 & RK & SP). set (L1 := map fst L) in *. set (Q1 := map snd L) in *.
    assert (AL : forall i j, length i = s -> length j = s -> (allowed T (i ++ j) <-> in_range (lens L1) i = true /\ in_range (lens L1) j = true /\ qprod G (pick e Q1 i) = qprod G (pick e Q1 j))).
    { intros i j Hi Hj. unfold allowed. rewrite SP, IndexProofs.in_range_app by (unfold lens; rewrite map_length; congruence). rewrite QT, pick_app by congruence. rewrite qprod_app, (proj2 (proj2 SQ)), andb_true_iff.
      assert (EI : in_range (lens L1) j = true -> qprod G (pick e (map (map (qinv G)) Q1) j) = qinv G (qprod G (pick e Q1 j))) by (rewrite <- NQ1; apply pick_dual).
      split.
      - intros ((H1 & H2) & H3). rewrite EI in H3 by exact H2. split; [exact H1|]. split; [exact H2|]. apply (qop_cancel_r G (qinv G (qprod G (pick e Q1 j)))). rewrite H3, qop_inv_r. reflexivity.
      - intros (H1 & H2 & H3). split; [auto|]. rewrite EI, H3, qop_inv_r by exact H2. reflexivity. }
    assert (SA : forall i j, length i = s -> length j = s -> stores T (i ++ j) -> in_range (lens L1) i = true /\ in_range (lens L1) j = true /\ qprod G (pick e Q1 i) = qprod G (pick e Q1 j)).
    { intros i j Hi Hj (v & Hv). apply AL; auto. apply (proj1 (proj2 V)) with (t := v). exact Hv. }
    split.
    - intros i j Hi Hj H. destruct (SA i j Hi Hj H) as (H1 & H2 & H3). apply AB. apply AL; auto.
    - intros i j i' j' Hi Hj Hi' Hj' H H' _ EQ. destruct (SA i j Hi Hj H) as (H1 & H2 & H3). destruct (SA i' j' Hi' Hj' H') as (H1' & H2' & H3'). exists i. split; [exact Hi|]. split; [left; reflexivity|].
      apply AB. apply AL; auto. split; [exact H1|]. split; [exact H2'|]. rewrite H3. unfold block_quantity in EQ.
      assert (C : forall A (x y : list A), length x = s -> skipn s (x ++ y) = y) by (intros A x y <-; rewrite skipn_app, Nat.sub_diag, skipn_all; reflexivity).
      rewrite QT, !C in EQ by assumption. 
      assert (EI : forall j, in_range (lens L1) j = true -> qprod G (pick e (map (map (qinv G)) Q1) j) = qinv G (qprod G (pick e Q1 j))) by (rewrite <- NQ1; apply pick_dual).
      rewrite !EI in EQ by assumption. rewrite <- (qinv_inv G (qprod G (pick e Q1 j))), <- EQ. apply qinv_inv.
  Qed.

  Lemma trunc_throws (W : weights) deigh gtb lower (wt : R -> W) (T : t) s thr mn mx r : eigh_trunc deigh gtb lower wt T s thr mn mx <> Some (Ok r).
  Proof. unfold eigh_trunc, obind. destruct (eigh_split deigh T s) as [(ev, u)| |]; discriminate. Qed.
End R.

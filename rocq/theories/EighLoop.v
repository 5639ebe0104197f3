(** The loops and the shapes of the block eigenvalue decomposition, compared with those of the singular value decomposition. *)
From Verif Require Import Base Quantity QuantityProofs FlatMap SpecFlatMap FlatMapProofs Ring Index SpecIndex Dense IndexProofs BTensor SpecBTensor LegsProofs
  BTensorProofs BTensorThms BTensorThms2 BTensorArith ArithProofs Tensordot SpecTensordot TensordotProofs TensordotThms SpecReshape View SpecView ViewProofs ViewThms
  Chain SpecChain SpecSector SpecSvd Edges SpecEdges EdgesProofs EdgesBlock BSvd SvdPieces SvdProofs SvdThms SvdMain Truncate BTrunc BEigh.
From Coq Require Import Permutation.
Set Implicit Arguments.

Section L.
  Variable G : abgroup.
  Variable R : ring.
  Notation t := (btensor G R).
  Notation "'e'" := (qe G).
  Notation piece := (dense R * list slice * list slice)%type.

  Lemma same_fields (A B : t) : meta_ok A -> meta_ok B -> legs A = legs B -> qlegs A = qlegs B -> b_rank A = b_rank B /\ b_sbd A = b_sbd B /\ b_ss A = b_ss B /\ b_cv A = b_cv B.
  Proof.
    intros MA MB E1 E2. pose proof (legs_lens MA) as NA. pose proof (legs_lens MB) as NB. pose proof (legs_length MA) as RA. pose proof (legs_length MB) as RB.
    split; [rewrite <- RA, <- RB, E1; reflexivity|]. split; [rewrite <- NA, <- NB, E1; reflexivity|]. split.
    - destruct MA as (_ & MA & _), MB as (_ & MB & _). unfold legs in E1. rewrite <- (concat_unpack _ _ MA), <- (concat_unpack _ _ MB), E1. reflexivity.
    - destruct MA as (_ & _ & MA), MB as (_ & _ & MB). unfold qlegs in E2. rewrite <- (concat_unpack _ _ MA), <- (concat_unpack _ _ MB), E2. reflexivity.
  Qed.
  Lemma same_record (A B : t) : meta_ok A -> meta_ok B -> legs A = legs B -> qlegs A = qlegs B -> b_rule A = b_rule B -> b_blocks A = b_blocks B -> A = B.
  Proof. intros MA MB E1 E2 E3 E4. destruct (same_fields MA MB E1 E2) as (H1 & H2 & H3 & H4). destruct A, B. cbn in *. congruence. Qed.
  Lemma shape_same (A B : t) L Q r : shape_is A L Q r -> shape_is B L Q r -> A = B.
  Proof. intros (V & B1 & l1 & q1 & r1) (V' & B2 & l2 & q2 & r2). apply same_record; try apply V; try apply V'; congruence. Qed.

  Lemma assign_inv (T T' : t) k v : block_assign T k v = Ok T' -> block_conservation_rule_test T k = Ok true /\ T' = with_blocks T (fm_subscript_assign lexb (@undefined_tensor R) (b_blocks T) k v).
  Proof. unfold block_assign. destruct (block_conservation_rule_test T k) as [[]| |]; cbn; intros H; try discriminate. injection H as <-. auto. Qed.
  Lemma put_rows_inv F b (l : list slice) : forall U U' : t, put_rows F b l U = Ok U' ->
    (exists bs, U' = with_blocks U bs) /\ rfold (fun _ '(r, _) => may_store U [r; b]) l tt = Ok tt.
  Proof.
    induction l as [|(r, (o, n)) l IH]; intros U U' H.
    - cbn in H. injection H as <-. split; [exists (b_blocks U); destruct U; reflexivity|reflexivity].
    - unfold put_rows in H. cbn [rfold] in H. destruct (block_assign U [r; b] _) as [U1| |] eqn:E; try discriminate. cbn [rbind] in H. apply assign_inv in E as (E1 & ->).
      destruct (IH _ _ H) as ((bs & ->) & H2). split; [exists bs; reflexivity|]. cbn [rfold]. unfold may_store at 1. rewrite E1. cbn [rbind]. exact H2.
  Qed.
  Lemma put_rows_same F b (l : list slice) : forall U U' V V' : t, put_rows F b l U = Ok U' -> put_rows F b l V = Ok V' -> b_blocks U = b_blocks V -> b_blocks U' = b_blocks V'.
  Proof.
    induction l as [|(r, (o, n)) l IH]; intros U U' V V' HU HV E.
    - cbn in *. congruence.
    - unfold put_rows in HU, HV. cbn [rfold] in HU, HV. destruct (block_assign U [r; b] _) as [U1| |] eqn:E1; try discriminate. destruct (block_assign V [r; b] _) as [V1| |] eqn:E2; try discriminate.
      cbn [rbind] in *. apply (IH _ _ _ _ HU HV). apply assign_inv in E1 as (_ & ->), E2 as (_ & ->). cbn. rewrite E. reflexivity.
  Qed.

  Variable deigh : bool -> dense R -> dense R * dense R.
  Variable upper : bool.
  (** The eigenvectors as both factors. *)
  Definition twice (M : dense R) : dense R * dense R * dense R := let '(ev, U) := deigh upper M in (U, ev, U).
  Definition fine (p : piece) : Prop := let '(M, rows, cols) := p in rows = cols /\ nth 0 (dsh M) 0 = nth 1 (dsh M) 0.
  Lemma loops ps : forall b (U d V : t) b' U' d' V', Forall fine ps -> b_blocks U = b_blocks V ->
    rfold (fun '(bi, U, d, V) '(M, rows, cols) =>
        let '(bU, bD, bV) := twice M in
        do U <- put_rows bU bi rows U ;
        do V <- put_rows bV bi cols V ;
        do d <- block_assign d [bi] bD ;
        Ok (S bi, U, d, V)) ps (b, U, d, V) = Ok (b', U', d', V') ->
    b_blocks U' = b_blocks V' /\
    rfold (fun bi '(_, rows, _) =>
      do _ <- rfold (fun _ '(r, _) => may_store U [r; bi]) rows tt ;
      do _ <- may_store d [bi] ;
      Ok (S bi)) ps b = Ok b' /\
    rfold (fun '(bi, d, U) '(M, rows, cols) =>
        do (bD, bU) <- linalg_eigh deigh upper M ;
        do U <- put_rows bU bi rows U ;
        do d <- block_assign d [bi] bD ;
        Ok (S bi, d, U)) ps (b, d, U) = Ok (b', d', U').
  Proof.
    induction ps as [|((M, rows), cols) ps IH]; intros b U d V b' U' d' V' HF E H.
    - cbn in H. injection H as <- <- <- <-. auto.
    - inversion HF as [|? ? HX HF']; subst. cbn in HX. destruct HX as (<- & SQ). cbn [rfold] in H |- *. unfold twice in H at 1. assert (LE : linalg_eigh deigh upper M = Ok (deigh upper M)) by (unfold linalg_eigh; rewrite (proj2 (Nat.eqb_eq _ _) SQ); reflexivity). rewrite LE. destruct (deigh upper M) as (bD, bU).
      destruct (put_rows bU b rows U) as [U1| |] eqn:E1; cbn [rbind] in H; try discriminate. destruct (put_rows bU b rows V) as [V1| |] eqn:E2; cbn [rbind] in H; try discriminate.
      destruct (block_assign d [b] bD) as [d1| |] eqn:E3; cbn [rbind] in H; try discriminate.
      pose proof (put_rows_same _ _ _ _ _ E1 E2 E) as E4. destruct (IH _ _ _ _ _ _ _ _ HF' E4 H) as (H1 & H2 & H3). split; [exact H1|].
      destruct (put_rows_inv _ _ _ _ E1) as ((bs & ->) & P1). pose proof (assign_inv _ _ _ E3) as (P2 & ->). split.
      + rewrite P1. cbn [rbind]. unfold may_store at 1. rewrite P2. cbn [rbind]. exact H2.
      + cbn [rbind]. rewrite E1. cbn [rbind]. rewrite E3. cbn [rbind]. exact H3.
  Qed.
  Lemma loop_legs (ps : list piece) : forall b (U d : t) b' U' d',
    rfold (fun '(bi, d, U) '(M, rows, cols) =>
        do (bD, bU) <- linalg_eigh deigh upper M ;
        do U <- put_rows bU bi rows U ;
        do d <- block_assign d [bi] bD ;
        Ok (S bi, d, U)) ps (b, d, U) = Ok (b', d', U') -> legs U' = legs U.
  Proof.
    induction ps as [|((M, rows), cols) ps IH]; intros b U d b' U' d' H.
    - cbn in H. injection H as <- <- <-. reflexivity.
    - cbn [rfold] in H. destruct (linalg_eigh deigh upper M) as [(bD, bU)| |]; cbn [rbind] in H; try discriminate. destruct (put_rows bU b rows U) as [U1| |] eqn:E1; cbn [rbind] in H; try discriminate.
      destruct (block_assign d [b] bD) as [d1| |] eqn:E3; cbn [rbind] in H; try discriminate. rewrite (IH _ _ _ _ _ _ H). destruct (put_rows_inv _ _ _ _ E1) as ((bs & ->) & _). reflexivity.
  Qed.
End L.

Section Shapes.
  Variable G : abgroup.
  Variable R : ring.
  Notation t := (btensor G R).
  Notation "'e'" := (qe G).
  Notation piece := (dense R * list slice * list slice)%type.
  Variable T : t.
  Variables (lr lc : list nat) (qr qc : list G).
  Hypothesis V : valid T.
  Hypothesis HL : legs T = [lr; lc].
  Hypothesis HQ : qlegs T = [qr; qc].
  Hypothesis HN : nonempty T.
  Notation pok := (piece_ok T lr lc qr qc).
  Definition wsize (p : piece) : nat := let '(M, _, _) := p in nth 1 (dsh M) 0.
  Lemma eigh_shapes_ok ks ps : 0 < nth 0 lc 0 -> Forall2 pok ks ps -> exists d U, eigh_shapes T ps = Ok (d, U) /\
    shape_is U [lr; map wsize ps] [qr; map snd ks] (qop G (b_rule T) (qop G (qinv G (nth 0 qc e)) (qinv G (nth 0 qc e)))) /\ shape_is d [map wsize ps] [map (fun _ => e) ks] e.
  Proof.
    intros H0 HP. unfold eigh_shapes.
    assert (RQ : rmapM (fun '(_, _, cols) => match cols with [] => UB | (c, _) :: _ => section_conserved_qtt T 1 c end) ps = Ok (map snd ks)).
    { clear HN. induction HP as [|k ((M, rows), cols) ks ps HP _ IH]; [reflexivity|]. cbn [rmapM map]. destruct HP as (m & n & _ & _ & TC & _ & KC & (_ & j & _ & Hj) & _).
      destruct cols as [|(c, s) cols]; [destruct Hj|]. destruct (proj1 (KC c) (or_introl eq_refl)) as (i & ((v & Hv) & K1 & K2)).
      destruct (@stored_pair G R T lr lc qr qc V HL HQ _ _ Hv) as (i' & j' & EQ & Hi & Hj' & _). injection EQ as <- <-.
      rewrite section_qtt_nth; [|apply V|rewrite (T_rank V HL); lia|rewrite (T_sbd V HL); exact Hj'].
      rewrite HQ. cbn [nth rbind]. rewrite K2, IH. reflexivity. }
    rewrite RQ. cbn [rbind]. assert (LP : length ks = length ps) by (eapply F2_len; eauto).
    change (map (fun '(M, _, _) => nth 1 (dsh M) 0) ps) with (map wsize ps).
    assert (L1 : length ps = length (map wsize ps)) by (rewrite map_length; reflexivity). rewrite L1.
    destruct (@leg_shape G R e (map wsize ps) (map (qinv G) (map snd ks))) as (lD & ElD & HlD); [rewrite !map_length; exact LP|]. rewrite ElD. cbn [rbind].
    destruct (@leg_shape G R e (map wsize ps) (map snd ks)) as (rD & ErD & HrD); [rewrite !map_length; exact LP|]. rewrite ErD. cbn [rbind].
    assert (N1 : 0 < sum_list lr) by (apply HN; rewrite HL; left; reflexivity). assert (N2 : 0 < sum_list lc) by (apply HN; rewrite HL; right; left; reflexivity).
    destruct (@rule_exists G R T [Some 0; Some 0] (proj1 V)) as (r0 & Hr0); [rewrite HL; cbn; auto|]. destruct (view_shape_ok (proj1 V) HN Hr0) as (S0 & E0 & HS0).
    assert (Hr1 : edge_rule [None; Some 0] T (qop G (b_rule T) (qinv G (nth 0 qc e)))).
    { exists [None; Some 0], [None; Some 0]. split; [rewrite HL; cbn; unfold located; repeat split; destruct lc; cbn in *; lia|]. rewrite HQ. cbn [fixed qprod fold_right]. rewrite qop_e_r, <- qop_assoc, (qop_comm _ (qinv G _)), qop_inv_r. apply qop_e_r. }
    destruct (view_shape_ok (proj1 V) HN Hr1) as (S1 & E1 & HS1). rewrite HL, HQ in HS0, HS1. cbn [keep] in HS0, HS1.
    change [0; 0]%Z with (zpat [Some 0; Some 0]). change [-1; 0]%Z with (zpat [None; Some 0]). rewrite E0. cbn [rbind].
    assert (SI : forall (A : t) L Q r, shape_is A L Q r -> legs A = L /\ qlegs A = Q /\ b_rule A = r) by (intros A L Q r (_ & _ & ?); assumption).
    destruct (SI _ _ _ _ HS0) as (l0 & q0 & _). destruct (SI _ _ _ _ HrD) as (lr' & qr' & rr').
    destruct (@shape_list2 G R S0 rD (shape_is_meta HS0) (shape_is_meta HrD)) as (d0 & Ed & Hd). rewrite Ed. cbn [rbind].
    rewrite l0, q0, lr', qr' in Hd. cbn [app] in Hd. destruct (neutral_shape_ok Hd) as (d & Ed' & Hd'). rewrite Ed'. cbn [rbind].
    rewrite E1. cbn [rbind]. rewrite section_qtt_nth; [|apply V|rewrite (T_rank V HL); lia|rewrite (T_sbd V HL); cbn; destruct lc; cbn in *; lia].
    rewrite HQ. cbn [nth rbind]. unfold shift_selection_rule_, is_empty. rewrite (proj1 (proj2 HS1)). cbn [rbind].
    pose proof (rule_shape (qop G (b_rule S1) (qinv G (nth 0 qc e))) HS1) as HS2. destruct (SI _ _ _ _ HS2) as (l2 & q2 & r2). destruct (SI _ _ _ _ HS1) as (_ & _ & r1).
    destruct (@shape_list2 G R _ rD (shape_is_meta HS2) (shape_is_meta HrD)) as (U & EU & HU). rewrite EU. cbn [rbind]. rewrite l2, q2, r2, lr', qr', rr', r1 in HU. cbn [app] in HU.
    rewrite qop_e_r, <- qop_assoc in HU. exists d, U. split; [reflexivity|]. split; [exact HU|]. cbn [map] in Hd'. rewrite map_map in Hd'. exact Hd'.
  Qed.
End Shapes.

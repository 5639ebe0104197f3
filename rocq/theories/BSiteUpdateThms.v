(** The update of two sites of block tensors. *)
From Verif Require Import Base Quantity QuantityProofs FlatMap SpecFlatMap FlatMapProofs FlatMapThms Ring Index SpecIndex IndexProofs Dense BTensor SpecBTensor LegsProofs BTensorProofs BTensorThms
  BTensorArith SpecArith ArithProofs ArithThms Tensordot SpecTensordot TensordotProofs TensordotThms Bcast SpecBcast BcastProofs BcastThms BcastMain View Chain SpecChain ChainProofs ChainThms ChainInst ChainEnd
  ModelsBlockProofs SpecMove SpecEdges SpecSector SpecSvd BSvd SvdDense MoveOc MoveProofs MoveInst Truncate SpecTruncate TruncateProofs BTrunc SpecBTrunc BTruncProofs BTruncThms BTruncMain CoalesceProofs
  Num Eig2 SpecEig2 Eig2Proofs Lanczos SpecLanczos LanczosVec LanczosProofs BLanczos SpecBLanczos BLanczosProofs BLanczosThms BLanczosMiss BLanczosMain
  SiteUpdate SpecSiteUpdate ChainNorm ChainEnergy SiteUpdateProofs SiteUpdateThms BSiteUpdate SpecBSiteUpdate BSvdCut.
Set Implicit Arguments.

(** * Two sites made of orthonormal columns and a unit vector of values *)
Section D.
  Variable N : numeric.
  Add Ring Rr : (ring_th N).
  Notation t := (dense N).
  Notation nn x := (n_leb N rz x = true).
  Tactic Notation "pulln" integer(n) := eapply eq_trans; [do n (apply pull; intro); reflexivity|cbn beta].
  Ltac inn := apply sumf_ext; intros ? _.
  Variables y p p' y' k : nat.
  Notation sh := [y; p; p'; y'].
  Lemma schmidt_norm_on (U : t) (d : nat -> N) (V : t) : orthonormal_on (fun c => d c <> rz) [y; p] k U -> orthonormal_on (fun c => d c <> rz) [p'; y'] k V -> (forall c, c < k -> rconj (d c) = d c) ->
    sprod sh (schmidt k U d V) (schmidt k U d V) = sum c < k, rmul (d c) (d c).
  Proof.
    intros HU HV HD. unfold sprod, schmidt.
    transitivity (sum c < k, sum c' < k, rmul (rmul (rconj (d c)) (d c')) (rmul (sum i < y, sum j < p, rmul (rconj (dv U [i; j; c])) (dv U [i; j; c'])) (sum i < p', sum j < y', rmul (rconj (dv V [i; j; c'])) (dv V [i; j; c])))).
    - transitivity (sum i0 < y, sum i1 < p, sum i2 < p', sum i3 < y', sum c < k, sum c' < k, rmul (rmul (rconj (d c)) (d c')) (rmul (rmul (rconj (dv U [i0; i1; c])) (dv U [i0; i1; c'])) (rmul (rconj (dv V [i2; i3; c'])) (dv V [i2; i3; c])))).
      + rewrite sum_idxs_cons. inn. rewrite sum_idxs_cons. inn. rewrite sum_idxs_cons. inn. rewrite sum_idxs1. inn. cbn [nth]. rewrite prod_sum. inn. inn. rewrite !rconj_mul, rconj_conj. ring.
      + pulln 4. inn. pulln 4. inn. rewrite <- sumf_mul_r, <- sumf_mul_l. inn. rewrite <- sumf_mul_r, <- sumf_mul_l. inn. rewrite <- !sumf_mul_l. inn. rewrite <- !sumf_mul_l. inn. reflexivity.
    - apply sumf_ext. intros c Hc. apply in_seq in Hc. rewrite <- (@sum_pick N k (fun c' => rmul (d c) (d c')) c) by lia. apply sumf_ext. intros c' Hc'. apply in_seq in Hc'. rewrite HD by lia.
      destruct (reqb (d c) rz) eqn:Q; [apply reqb_spec in Q; rewrite Q; destruct (c =? c'); ring|]. destruct (reqb (d c') rz) eqn:Q'; [apply reqb_spec in Q'; rewrite Q'; destruct (c =? c'); ring|].
      assert (Z : d c <> rz) by (intros X; rewrite (proj2 (reqb_spec N _ _) X) in Q; discriminate). assert (Z' : d c' <> rz) by (intros X; rewrite (proj2 (reqb_spec N _ _) X) in Q'; discriminate).
      assert (QU : (sum i < y, sum j < p, rmul (rconj (dv U [i; j; c])) (dv U [i; j; c'])) = if c =? c' then ro else rz) by (rewrite <- (HU c c') by (lia || assumption); rewrite sum_idxs_cons; inn; rewrite sum_idxs1; reflexivity).
      assert (QV : (sum i < p', sum j < y', rmul (rconj (dv V [i; j; c'])) (dv V [i; j; c])) = if c' =? c then ro else rz) by (rewrite <- (HV c' c) by (lia || assumption); rewrite sum_idxs_cons; inn; rewrite sum_idxs1; reflexivity).
      rewrite QU, QV. destruct (Nat.eqb_spec c c') as [->|D]; [rewrite Nat.eqb_refl; ring|]. ring.
  Qed.

  Variables (b b' u v : t) (d : nat -> N) (fwd : bool).
  Hypothesis (Sb : dsh b = [y; p; k]) (Sb' : dsh b' = [k; p'; y']).
  Hypothesis Vb : forall i j c, i < y -> j < p -> c < k -> dv b [i; j; c] = if fwd then dv u [i; j; c] else rmul (dv u [i; j; c]) (d c).
  Hypothesis Vb' : forall c i j, c < k -> i < p' -> j < y' -> dv b' [c; i; j] = rconj (if fwd then rmul (dv v [i; j; c]) (d c) else dv v [i; j; c]).
  Hypothesis Rd : forall c, c < k -> rconj (d c) = d c.
  Lemma pair_schmidt i : in_range sh i = true -> pair_amp b b' i = schmidt k u d v i.
  Proof.
    intros Hi. apply in_range4 in Hi as (i0 & i1 & i2 & i3 & -> & H0 & H1 & H2 & H3). rewrite (@pair_val N b b' k y') by (unfold size; rewrite ?Sb, ?Sb'; reflexivity || assumption).
    unfold schmidt. cbn [nth]. apply sumf_ext. intros c Hc. apply in_seq in Hc. rewrite Vb, Vb' by lia. destruct fwd; [rewrite rconj_mul, Rd by lia|]; ring.
  Qed.
  Lemma gram_u (P : nat -> Prop) : orthonormal_on P [y; p] k u -> fwd = true -> forall c c', c < k -> c' < k -> P c -> P c' ->
    (sum i < y, sum j < p, rmul (rconj (dv b [i; j; c])) (dv b [i; j; c'])) = if c =? c' then ro else rz.
  Proof.
    intros H E c c' Hc Hc' Pc Pc'. rewrite <- (H c c' Hc Hc' Pc Pc'), sum_idxs_cons. apply sumf_ext. intros i Hi. apply in_seq in Hi. rewrite sum_idxs1. apply sumf_ext. intros j Hj. apply in_seq in Hj. rewrite !Vb, E by lia. reflexivity.
  Qed.
  Lemma gram_v (P : nat -> Prop) : orthonormal_on P [p'; y'] k v -> fwd = false -> forall c c', c < k -> c' < k -> P c -> P c' ->
    (sum i < p', sum j < y', rmul (dv b' [c; i; j]) (rconj (dv b' [c'; i; j]))) = if c =? c' then ro else rz.
  Proof.
    intros H E c c' Hc Hc' Pc Pc'. rewrite <- (H c c' Hc Hc' Pc Pc'), sum_idxs_cons. apply sumf_ext. intros i Hi. apply in_seq in Hi. rewrite sum_idxs1. apply sumf_ext. intros j Hj. apply in_seq in Hj. rewrite !Vb', E by lia. rewrite rconj_conj. reflexivity.
  Qed.
  Lemma used_r c : c < k -> fwd = true -> used_right b' c -> d c <> rz.
  Proof.
    intros Hc E (i & j & Hi & Hj & H) Q. apply H. unfold size in Hi, Hj. rewrite Sb' in Hi, Hj. cbn [nth] in Hi, Hj. rewrite Vb', E, Q, rmul_0_r by assumption. apply rconj_0.
  Qed.
  Lemma used_l c : c < k -> fwd = false -> used_left b c -> d c <> rz.
  Proof.
    intros Hc E (i & j & Hi & Hj & H) Q. apply H. unfold size in Hi, Hj. rewrite Sb in Hi, Hj. cbn [nth] in Hi, Hj. rewrite Vb, E, Q, rmul_0_r by assumption. reflexivity.
  Qed.
  Hypothesis OU : orthonormal_on (fun c => d c <> rz) [y; p] k u.
  Hypothesis OV : orthonormal_on (fun c => d c <> rz) [p'; y'] k v.
  Lemma pair_norm : (sum c < k, rmul (d c) (d c)) = ro -> sprod sh (pair_amp b b') (pair_amp b b') = ro.
  Proof. intros <-. rewrite <- (@schmidt_norm_on u d v OU OV Rd). apply sprod_ext; exact pair_schmidt. Qed.
  Lemma pair_used : if fwd then left_isometry_used b b' else right_isometry_used b b'.
  Proof.
    pose proof (gram_u OU) as GU. pose proof (gram_v OV) as GV. pose proof used_r as UR. pose proof used_l as UL. destruct fwd; intros c c' Hc Hc' Uc Uc'; unfold size in *; rewrite ?Sb, ?Sb' in *; cbn [nth] in *; [apply GU|apply GV]; auto.
  Qed.
  Lemma pair_iso : tensor_orthonormal [y; p] k u -> tensor_orthonormal [p'; y'] k v -> if fwd then left_isometry b else right_isometry b'.
  Proof.
    intros TU TV. pose proof (@gram_u (fun _ => True) (fun c c' H1 H2 _ _ => TU c c' H1 H2)) as GU. pose proof (@gram_v (fun _ => True) (fun c c' H1 H2 _ _ => TV c c' H1 H2)) as GV.
    destruct fwd; intros c c' Hc Hc'; unfold size in *; rewrite ?Sb, ?Sb' in *; cbn [nth] in *; [apply GU|apply GV]; auto.
  Qed.
End D.

Section B.
  Variable G : abgroup.
  Variable N : numeric.
  Variable W : weights.
  Variable imax : nat.
  Notation bt := (btensor G N).
  Notation d := (dense N).
  Notation tl := (@blegs G N).
  Notation dual := (@bdual G).
  Notation den := (@stored G N imax).
  Notation bk := (bk0 G).
  Notation bsz := (@bsz G).
  Add Ring Rr' : (ring_th N).
  Notation nn x := (n_leb N rz x = true).
  Notation leg := (list nat * list G)%type.
  Ltac small := cbn; intros; repeat match goal with H : _ \/ _ |- _ => destruct H end; try contradiction; subst; lia.
  Ltac dist := repeat (constructor; [cbn; intuition congruence|]); constructor.

  Lemma scale3 (X v : bt) DX Dv a b k : den X DX -> tl X = [a; b; k] -> den v Dv -> tl v = [neutral_leg k] -> b_rule v = qe G ->
    exists Y DY, b_mul_ X v = Ok Y /\ tl Y = tl X /\ den Y DY /\ b_rule Y = b_rule X /\
      forall i j z, i < bsz a -> j < bsz b -> z < bsz k -> dv DY [i; j; z] = rmul (dv DX [i; j; z]) (dv Dv [z]).
  Proof.
    intros (VX & FX & IX) EX (Vd & Fd & _) Ld Rd. destruct (blegs_split (proj1 VX) EX) as (LX & QX). destruct (blegs_split (proj1 Vd) Ld) as (Ldl & Ldq). cbn in LX, QX, Ldl, Ldq.
    assert (RX : b_rank X = 3) by (rewrite <- (blegs_length (proj1 VX)), EX; reflexivity). assert (Rkd : b_rank v = 1) by (rewrite <- (blegs_length (proj1 Vd)), Ld; reflexivity).
    assert (OK : bc_ok X v).
    { unfold bc_ok. rewrite RX, Rkd. cbn [Nat.max Nat.leb]. rewrite LX, Ldl. split.
      - intros [|[|[|j]]] Hj; cbn; try tauto; lia.
      - intros (j & Hj & HB'). cbn in Hj. assert (j = 2) by lia. subst j. cbn in HB'. destruct HB' as [(E1 & [E2|(m & Hm & E2)])|(E1 & E2)]; congruence. }
    destruct (mul_thm VX Vd OK FX Fd) as (Y & DY & EY & (VY & RY & LY & QY & _) & EZ & FY). rewrite RX, Rkd in LY, QY. cbn [Nat.max] in LY, QY.
    rewrite LX, Ldl in LY. rewrite QX, Ldq in QY. cbn in LY, QY. rewrite !bleg_r1, bleg_same in LY. rewrite !bqleg_e, neutral_q in QY.
    assert (TY : tl Y = tl X) by (rewrite EX; unfold blegs; rewrite LY, QY; destruct a, b, k; reflexivity).
    exists Y, DY. split; [unfold b_mul_; rewrite inplace_thm by (rewrite ?RX, ?Rkd; try lia; assumption); exact EY|].
    split; [exact TY|]. split; [split; [exact VY|split; [exact FY|]]|].
    { apply sbd_imax; [apply VY|]. rewrite TY. apply imax_sbd; [apply VX|exact IX]. }
    split; [rewrite RY, Rd; apply qop_e_r|]. intros i j z Hi Hj Hz.
    assert (SX : dsh DX = [bsz a; bsz b; bsz k]) by (rewrite (proj1 FX), LX; reflexivity). assert (Sd : dsh Dv = [bsz k]) by (rewrite (proj1 Fd), Ldl; reflexivity).
    unfold t_zip in EZ. rewrite SX, Sd in EZ. cbn [rev app bc_shape] in EZ. rewrite Nat.eqb_refl in EZ. cbn [orb andb] in EZ. injection EZ as <-. cbn [dv]. f_equal.
    - f_equal. apply bproj_id. cbn. rewrite !(proj2 (Nat.ltb_lt _ _)) by assumption. reflexivity.
    - f_equal. transitivity (bproj [bsz k] [z]); [reflexivity|]. apply bproj_id. cbn. rewrite !(proj2 (Nat.ltb_lt _ _)) by assumption. reflexivity.
  Qed.
  Lemma perm3 (X : bt) DX a b k : den X DX -> tl X = [a; b; k] -> exists Y DY, b_perm [2; 0; 1] (conj X) = Ok Y /\ tl Y = [dual k; dual a; dual b] /\ den Y DY /\ b_rule Y = qinv G (b_rule X) /\
    forall c i j, dv DY [c; i; j] = rconj (dv DX [i; j; c]).
  Proof.
    intros HX TX. destruct (stored_conj HX) as (TC & DC). rewrite TX in TC. cbn [map] in TC.
    destruct (@stored_perm_rule G N imax (conj X) (d_map rconj DX) [2; 0; 1] DC) as (Y & EY & TY & DY & RY); [rewrite TC; reflexivity|dist|rewrite TC; small|].
    exists Y, (d_permute [2; 0; 1] (d_map rconj DX)). split; [exact EY|]. split; [rewrite TY, TC; reflexivity|]. split; [exact DY|]. split; [rewrite RY; reflexivity|]. intros c i j. reflexivity.
  Qed.
  Lemma unit_ok (v : bt) Dv k s : den v Dv -> tl v = [neutral_leg k] -> b_rule v = qe G -> s = n_sqrt N (sum c < bsz k, rmul (dv Dv [c]) (dv Dv [c])) -> s <> rz ->
    exists v' Dv', b_unit_norm v = Ok v' /\ den v' Dv' /\ tl v' = [neutral_leg k] /\ b_rule v' = qe G /\ forall c, c < bsz k -> dv Dv' [c] = ndiv N (dv Dv [c]) s.
  Proof.
    intros Hv Tv Rv Es Zs. set (sq := fun z : N => rmul z z). destruct (@sim_map G N imax sq v Dv Hv) as (Hq & Tq & Rq); [unfold sq; ring|]. set (q := bt_elementwise sq v) in *.
    pose proof Hq as (Vq & Fq & _). destruct (sum_spec Vq Fq) as (Ei & Vs). assert (Vs' : valid (bt_sum q)) by (apply Vs; rewrite Rq; exact Rv).
    assert (SV : dsh Dv = [bsz k]) by (rewrite (stored_shape Hv), Tv; reflexivity).
    set (S := bt_sum q) in *. assert (EB : exists x, b_blocks S = [([], d_scalar x)]) by (unfold S, bt_sum; cbn [b_blocks]; eauto). destruct EB as (x & EB).
    assert (Ex : x = sum c < bsz k, rmul (dv Dv [c]) (dv Dv [c])).
    { unfold BTensor.item in Ei. rewrite EB in Ei. unfold d_item in Ei. cbn in Ei. injection Ei as ->. rewrite SV. transitivity (sumf N (fun a => sq (dv Dv a)) (idxs [bsz k])); [reflexivity|]. rewrite sum_idxs1. reflexivity. }
    assert (HS : den S (mkD [] (fun _ => x))).
    { split; [exact Vs'|]. split; [|unfold S; cbn; tauto]. split; [reflexivity|]. intros bb oo. unfold S at 1. cbn [bt_sum b_sbd legs unpack]. intros H1 H2. unfold S, bt_sum in H2. destruct bb; [|discriminate]. unfold bentry. rewrite EB. cbn [assoc]. replace (leqb [] []) with true by reflexivity. reflexivity. }
    assert (TS : tl S = []) by reflexivity. assert (RS : b_rule S = qe G) by (transitivity (b_rule q); [reflexivity|rewrite Rq; exact Rv]).
    destruct (@sim_map G N imax (n_sqrt N) S _ HS (sqrt_0 N)) as (Hr & Tr & Rr). set (r := bt_elementwise (n_sqrt N) S) in *.
    assert (Er : b_blocks r = [([], mkD [] (fun _ => s))]).
    { unfold r, bt_elementwise. cbn [map_blocks with_blocks b_blocks]. rewrite EB. cbn [map]. unfold d_map, d_scalar. cbn [dsh dv fst snd]. assert (Sx : n_sqrt N x = s) by (rewrite Ex; symmetry; exact Es). rewrite <- Sx. reflexivity. }
    destruct (@sim_div G N imax v r Dv _ Hv Hr) as (v' & Dv' & E1 & E2 & H1 & T1 & R1 & _); [rewrite Tr; exact TS|rewrite Rr; exact RS|unfold has; rewrite Er; cbn; discriminate|].
    exists v', Dv'. split.
    { unfold b_unit_norm. fold sq q S r. unfold BTensor.item. rewrite Er. unfold d_item. cbn [dsh prod_list]. change (prod_list [] =? 1) with true. cbn [rbind dv]. destruct (reqb s rz) eqn:Q; [apply reqb_spec in Q; contradiction|exact E1]. }
    split; [exact H1|]. split; [rewrite T1; exact Tv|]. split; [rewrite R1; exact Rv|]. intros c Hc. unfold t_zip in E2. rewrite SV in E2. cbn [d_map dsh rev app bc_shape] in E2.
    assert (QQ : leqb [bsz k] [bsz k] = true) by (apply leqb_eq; reflexivity). rewrite QQ in E2. cbn [andb negb] in E2. injection E2 as <-. cbn [dv d_map]. rewrite bproj_self by (cbn; rewrite (proj2 (Nat.ltb_lt _ _)) by exact Hc; reflexivity).
    rewrite Ex, <- Es. reflexivity.
  Qed.

  Lemma tdot_33 (A B : d) x p k p' y i0 i1 i2 i3 : dsh A = [x; p; k] -> dsh B = [k; p'; y] ->
    dv (d_tdot A B [2] [0]) [i0; i1; i2; i3] = sum c < k, rmul (dv A [i0; i1; c]) (dv B [c; i2; i3]).
  Proof. intros EA EB. unfold d_tdot. rewrite EA, EB. cbn [length free seq filter existsb Nat.eqb negb orb gather map nth app dv firstn skipn]. rewrite sum_idxs1. reflexivity. Qed.
  Lemma sizes_dual l : bsz (dual l) = bsz l. Proof. apply bdual_size. Qed.

  Variable eps : N.
  Variable gtb : N -> N -> bool.
  Variable lower : N -> N.
  Variable wt : N -> W.
  Variable dsvd : d -> d * d * d.
  Variable thr : W.
  Variables mn mx : Z.
  Hypothesis Peps : le N rz eps.
  Hypothesis Zeps : eps <> rz.
  Hypothesis HO : total_order gtb.
  Hypothesis low : forall x, gtb x rz = true -> gtb x (lower x) = true.
  Hypothesis low0 : lower rz = rz.
  Hypothesis Hmn : (1 <= mn <= mx)%Z.
  Notation vals := (fun M => snd (fst (dsvd M))).
  Hypothesis H_thin : forall M, (exists m n, dsh M = [m; n]) -> thin M (dsvd M) /\ real_entries (vals M) /\ SpecBTrunc.descending gtb (entries (vals M)) /\ forall x, In x (entries (vals M)) -> gtb rz x = false.

  Theorem bsite_ok (fwd : bool) (a a' H L E s P : bt) (Da Da' DH DL DE : d) (x p k p' x' o o' : leg) :
    den a Da -> den a' Da' -> den H DH -> den L DL -> den E DE ->
    tl L = [x; o; dual x] -> tl a = [dual x; p; k] -> tl a' = [dual k; p'; x'] -> tl H = [dual o; p; p'; o'; dual p; dual p'] -> tl E = [dual x'; dual o'; x'] -> conserving L H E ->
    merge (tensordot imax) a a' = Ok s -> hamil2site_times_state (tensordot imax) s H L E = Ok P -> reached P s ->
    length (fst x) * length (fst p) <= imax -> (Z.of_nat (bsz p' * bsz x') <= 2 ^ 63)%Z ->
    hermitian_kernel [bsz x; bsz p; bsz p'; bsz x'] (heff DL DH DE) ->
    sprod [bsz x; bsz p; bsz p'; bsz x'] (pair_amp Da Da') (pair_amp Da Da') = ro ->
    improvable [bsz x; bsz p; bsz p'; bsz x'] (heff DL DH DE) eps (pair_amp Da Da') ->
    (forall Et U DU M, b_update imax eps s H L E = Ok (Et, U) -> den U DU -> tl U = [dual x; p; p'; x'] -> sector_matrix 2 U DU M -> isometries M (dsvd M)) ->
    (forall Et U DU u v w z, b_update imax eps s H L E = Ok (Et, U) -> den U DU -> tl U = [dual x; p; p'; x'] -> sprod [bsz x; bsz p; bsz p'; bsz x'] (dv DU) (dv DU) = ro ->
      svd_split dsvd U 2 = Ok (u, v, w) -> tidy gtb v z u /\ tidy gtb v z w) ->
    exists Et b b' k' DEt Db Db', b_site_update imax eps gtb lower wt dsvd thr mn mx fwd a a' H L E = Some (Ok (Et, b, b')) /\
      (den Et DEt /\ den b Db /\ den b' Db') /\ (tl Et = [] /\ tl b = [dual x; p; k'] /\ tl b' = [dual k'; p'; x']) /\
      (b_rule b = qop G (b_rule a) (b_rule a') /\ b_rule b' = qe G) /\
      1 <= bsz k' <= Nat.min (bsz x * bsz p) (bsz p' * bsz x') /\
      sprod [bsz x; bsz p; bsz p'; bsz x'] (pair_amp Db Db') (pair_amp Db Db') = ro /\
      (if fwd then left_isometry_used Db Db' else right_isometry_used Db Db') /\
      le N (dv DEt []) (energy [bsz x; bsz p; bsz p'; bsz x'] (heff DL DH DE) (pair_amp Da Da')) /\
      ((forall l, wgtb (total wt l) thr = true <-> exists v, In v l /\ v <> rz) -> (Z.of_nat (bsz p' * bsz x') <= mx)%Z ->
        energy [bsz x; bsz p; bsz p'; bsz x'] (heff DL DH DE) (pair_amp Db Db') = dv DEt [] /\
        ((forall Et U DU e, b_update imax eps s H L E = Ok (Et, U) -> den U DU -> tl U = [dual x; p; p'; x'] -> sprod [bsz x; bsz p; bsz p'; bsz x'] (dv DU) (dv DU) = ro -> In e (b_blocks U) ->
            exists e' j, In e' (b_blocks U) /\ block_quantity 2 U (fst e') = block_quantity 2 U (fst e) /\ in_range (dsh (snd e')) j = true /\ dv (snd e') j <> rz) ->
          if fwd then left_isometry Db else right_isometry Db')).
  Proof.
    intros Ha Ha' HH HL HE TL Ta Ta' TH TE CV EM EP RE IS HB HM NV IMP HISO HTID.
    set (sh := [bsz x; bsz p; bsz p'; bsz x']) in *.
    assert (Sa : dsh Da = [bsz x; bsz p; bsz k]) by (rewrite (stored_shape Ha), Ta; cbn [map]; rewrite sizes_dual; reflexivity).
    assert (Sa' : dsh Da' = [bsz k; bsz p'; bsz x']) by (rewrite (stored_shape Ha'), Ta'; cbn [map]; rewrite sizes_dual; reflexivity).
    destruct (@stored_tdot_rule G N imax a a' Da Da' [2] [0] Ha Ha') as (s' & ES & TS & HS & RS); try (rewrite ?Ta, ?Ta'; solve [small | dist | reflexivity | cbn; rewrite ?bdual_dual; reflexivity]).
    unfold merge in EM. rewrite EM in ES. injection ES as <-. rewrite Ta, Ta' in TS. change (tl s = [dual x; p; p'; x']) in TS.
    set (Ds := d_tdot Da Da' [2] [0]) in *. pose proof (@shape_ts G N imax x p p' x' s Ds HS TS) as SS. fold sh in SS.
    assert (VS : forall i, in_range sh i = true -> dv Ds i = pair_amp Da Da' i).
    { intros i Hi. apply in_range4 in Hi as (i0 & i1 & i2 & i3 & -> & H0 & H1 & H2 & H3). unfold Ds. rewrite (@tdot_33 Da Da' _ _ _ _ _ i0 i1 i2 i3 Sa Sa'). symmetry. apply pair_val with (y := bsz x'); [unfold size; rewrite Sa; reflexivity|unfold size; rewrite Sa'; reflexivity|exact H3]. }
    pose proof (@sim_update G N imax L H E DL DH DE x p p' x' o o' HL HH HE TL TH TE CV eps s P Ds HS TS EP RE) as SO.
    pose proof (@dfits G N imax L H E DL DH DE x p p' x' o o' HL HH HE TL TH TE) as FT.
    destruct (@update_good N DL DH DE (bsz x) (bsz p) (bsz p') (bsz x') eps Ds FT SS HM) as (DEt & DU & EU & SU & NU & EnU & LeU); auto.
    { fold sh. rewrite <- NV. apply sprod_ext; exact VS. }
    { eapply improvable_ext; [intros; reflexivity| |exact IMP]. intros i Hi. symmetry. apply VS, Hi. }
    fold sh in SU, NU, EnU, LeU. rewrite EU in SO. unfold same_outcome in SO. destruct (b_update imax eps s H L E) as [[Et U]|e|] eqn:EB; [|contradiction|contradiction]. cbn [fst snd] in SO. destruct SO as (A1 & A2 & A3 & A4 & A5).
    rewrite TS in A4. pose proof A2 as (VU & FU & IU).
    assert (NZ : exists i0, in_range (dsh DU) i0 = true /\ dv DU i0 <> rz).
    { destruct (existsb (fun i => negb (reqb (dv DU i) rz)) (idxs sh)) eqn:EX.
      - apply existsb_exists in EX as (i & Hi & Ni). apply idxs_In in Hi. exists i. split; [rewrite SU; exact Hi|]. intros Q. rewrite (proj2 (reqb_spec N _ _) Q) in Ni. discriminate.
      - exfalso. apply (n_one N). rewrite <- NU. unfold sprod. apply sumf_zero. intros i Hi. destruct (reqb (dv DU i) rz) eqn:Q; [apply reqb_spec in Q; rewrite Q; ring|]. exfalso.
        assert (X : existsb (fun i => negb (reqb (dv DU i) rz)) (idxs sh) = true) by (apply existsb_exists; exists i; rewrite Q; auto). congruence. }
    destruct NZ as (i0 & Hi0 & NZ0).
    assert (LU : b_rank U = 4) by (rewrite <- (blegs_length (proj1 VU)), A4; reflexivity).
    assert (HNE : nonempty U).
    { intros l Hl. destruct (Nat.eq_dec (sum_list l) 0) as [E0|E0]; [|lia]. exfalso. clear - Hl Hi0 E0 FU. rewrite (proj1 FU) in Hi0. revert Hl Hi0. generalize (legs U). intros LL. revert i0. induction LL as [|c LL IH]; intros [|z i]; cbn; try tauto; try discriminate.
      intros Hl Hi. apply andb_true_iff in Hi as (H1 & H2). apply Nat.ltb_lt in H1. destruct Hl as [->|Hl]; [lia|]. eapply IH; eauto. }
    assert (SM : forall M, sector_matrix 2 U DU M -> exists m n, dsh M = [m; n]) by (intros M (m & n & _ & _ & _ & _ & Q & _); eauto).
    assert (F1 : firstn 2 (tl U) = [dual x; p]) by (rewrite A4; reflexivity). assert (F2 : skipn 2 (tl U) = [p'; x']) by (rewrite A4; reflexivity).
    destruct (@svd_cut_ok G N W gtb lower wt HO dsvd thr mn mx Hmn low low0 U DU 2 i0 VU HNE) as (u & q & v & k' & Du & Dq & Dv & EC & (Vu & Vq & Vv) & (K1 & K2 & K3) & (K4 & K5) & (Tu & Tq & Tv) & (Ru & Rq & Rv) & (Fu & Fq & Fv) & (c0 & Hc0 & NZc) & CISO & CRE & CEX); try assumption.
    { lia. }
    { intros M HMM. destruct (H_thin M (SM M HMM)) as (Q1 & _ & Q2). split; [exact Q1|exact Q2]. }
    { rewrite F2. cbn. rewrite Nat.mul_1_r. exact HB. }
    { intros uu qq vv z Q. exact (HTID Et U DU uu qq vv z eq_refl A2 A4 NU Q). }
    rewrite F1, F2 in *. cbn [map app] in Tu, Tv, CISO, CEX. change (prod_list (map bsz [dual x; p])) with (bsz (dual x) * (bsz p * 1)) in K4. change (prod_list (map bsz [p'; x'])) with (bsz p' * (bsz x' * 1)) in K5.
    assert (PR : Z.of_nat (prod_list [bsz p'; bsz x']) = Z.of_nat (bsz p' * bsz x')) by (cbn; rewrite Nat.mul_1_r; reflexivity).
    rewrite Nat.mul_1_r, sizes_dual in K4. rewrite Nat.mul_1_r in K5. rewrite !sizes_dual, PR in *.
    assert (IK : length (fst k') <= imax). { unfold sections in K2. cbn in K2. rewrite Nat.mul_1_r in K2. lia. }
    assert (IL : forall l, In l [dual x; p; p'; x'] -> length (fst l) <= imax) by (rewrite <- A4; apply imax_sbd; [apply VU|exact IU]).
    assert (Hu : den u Du). { split; [exact Vu|]. split; [exact Fu|]. apply sbd_imax; [apply Vu|]. rewrite Tu. intros l [<-|[<-|[<-|[]]]]; [apply IL; cbn; auto..|exact IK]. }
    assert (Hv : den v Dv). { split; [exact Vv|]. split; [exact Fv|]. apply sbd_imax; [apply Vv|]. rewrite Tv. intros l [<-|[<-|[<-|[]]]]; [apply (IL p'); cbn; auto|apply (IL x'); cbn; auto|exact IK]. }
    assert (Hq : den q Dq). { split; [exact Vq|]. split; [exact Fq|]. apply sbd_imax; [apply Vq|]. rewrite Tq. intros l [<-|[]]. exact IK. }
    destruct (CISO (fun M HMM => HISO Et U DU M eq_refl A2 A4 HMM)) as (OU & OV).
    assert (Sq : dsh Dq = [bsz k']) by (rewrite (stored_shape Hq), Tq; reflexivity).
    assert (RD : forall c, c < bsz k' -> rconj (dv Dq [c]) = dv Dq [c]).
    { intros c Hc. apply (CRE (fun M HMM => proj1 (proj2 (H_thin M (SM M HMM))))). rewrite Sq. cbn. rewrite (proj2 (Nat.ltb_lt _ _)) by exact Hc. reflexivity. }
    set (sg := n_sqrt N (sum c < bsz k', rmul (dv Dq [c]) (dv Dq [c]))).
    assert (N2 : nn (sum c < bsz k', rmul (dv Dq [c]) (dv Dq [c]))) by (apply nn_sum; intros c Hc; apply in_seq in Hc; apply nn_real_sq, RD; lia).
    assert (Ns : nn sg) by (apply n_sqrt_nn; exact N2). assert (Ss : rmul sg sg = sum c < bsz k', rmul (dv Dq [c]) (dv Dq [c])) by (apply n_sqrt_sq; exact N2).
    assert (Zs : sg <> rz).
    { intros Q. rewrite Q, rmul_0_r in Ss. apply NZc. apply sq_zero. rewrite RD by exact Hc0. symmetry in Ss. revert Ss. clear - Hc0 RD. 
      assert (X : forall l, (forall c, In c l -> rconj (dv Dq [c]) = dv Dq [c]) -> sumf N (fun c => rmul (dv Dq [c]) (dv Dq [c])) l = rz -> forall c, In c l -> rmul (dv Dq [c]) (dv Dq [c]) = rz).
      { induction l as [|c l IH]; intros R Q z Hz; [destruct Hz|]. rewrite sumf_cons in Q.
        assert (P1 : nn (rmul (dv Dq [c]) (dv Dq [c]))) by (apply nn_real_sq, R; left; reflexivity). assert (P2 : nn (sumf N (fun c => rmul (dv Dq [c]) (dv Dq [c])) l)) by (apply nn_sum; intros e He; apply nn_real_sq, R; right; exact He).
        pose proof (nn_sum_zero N _ _ P1 P2 Q) as Z1. destruct Hz as [<-|Hz]; [exact Z1|]. apply IH; [intros; apply R; right; assumption| |exact Hz]. rewrite Z1, radd_0_l in Q. exact Q. }
      intros Q. apply (X (seq 0 (bsz k'))); [intros c Hc; apply in_seq in Hc; apply RD; lia|exact Q|apply in_seq; lia]. }
    destruct (@unit_ok q Dq k' sg Hq Tq Rq eq_refl Zs) as (q1 & Dq1 & Eq1 & Hq1 & Tq1 & Rq1 & Vq1).
    set (dd := fun c => dv Dq1 [c]).
    assert (DM : forall c, c < bsz k' -> rmul sg (dd c) = dv Dq [c]) by (intros c Hc; unfold dd; rewrite Vq1 by exact Hc; apply div_mul; exact Zs).
    assert (DR : forall c, c < bsz k' -> rconj (dd c) = dd c).
    { intros c Hc. apply (@mul_eq N sg _ _ Zs). rewrite DM by exact Hc. rewrite <- (RD c Hc), <- (DM c Hc) at 1. rewrite rconj_mul, (n_nn_conj N sg Ns). reflexivity. }
    assert (DN : forall c, c < bsz k' -> dd c <> rz -> dv Dq [c] <> rz).
    { intros c Hc Nz Q. apply Nz. rewrite <- (DM c Hc) in Q. apply mul_zero in Q as [Q|Q]; [contradiction|exact Q]. }
    assert (OU1 : orthonormal_on (fun c => dd c <> rz) [bsz x; bsz p] (bsz k') Du) by (intros c c' Hc Hc' Pc Pc'; apply OU; auto).
    assert (OV1 : orthonormal_on (fun c => dd c <> rz) [bsz p'; bsz x'] (bsz k') Dv) by (intros c c' Hc Hc' Pc Pc'; apply OV; auto).
    assert (N1 : (sum c < bsz k', rmul (dd c) (dd c)) = ro).
    { apply (@mul_eq N (rmul sg sg)); [intros Q; apply mul_zero in Q as [Q|Q]; contradiction|]. rewrite <- sumf_mul_l, rmul_1_r. etransitivity; [|symmetry; exact Ss]. apply sumf_ext. intros c Hc. apply in_seq in Hc. rewrite <- DM by lia. ring. }
    assert (BB : exists b b' Db Db', (do d0 <- b_unit_norm q ; (if fwd then do vd <- b_mul_ v d0 ; do b <- b_perm [2; 0; 1] (conj vd) ; Ok (Et, u, b) else do ud <- b_mul_ u d0 ; do b <- b_perm [2; 0; 1] (conj v) ; Ok (Et, ud, b))) = Ok (Et, b, b') /\
      den b Db /\ den b' Db' /\ tl b = [dual x; p; k'] /\ tl b' = [dual k'; p'; x'] /\ b_rule b = b_rule U /\ b_rule b' = qe G /\
      (forall i j c, i < bsz x -> j < bsz p -> c < bsz k' -> dv Db [i; j; c] = if fwd then dv Du [i; j; c] else rmul (dv Du [i; j; c]) (dd c)) /\
      (forall c i j, c < bsz k' -> i < bsz p' -> j < bsz x' -> dv Db' [c; i; j] = rconj (if fwd then rmul (dv Dv [i; j; c]) (dd c) else dv Dv [i; j; c]))).
    { rewrite Eq1. cbn [rbind]. destruct fwd.
      - destruct (@scale3 v q1 Dv Dq1 (dual p') (dual x') k' Hv Tv Hq1 Tq1 Rq1) as (vd & Dvd & Evd & Tvd & Hvd & Rvd & Vvd). destruct (@perm3 vd Dvd (dual p') (dual x') k' Hvd) as (b' & Db' & Eb & Tb & Hb & Rb & Vb); [rewrite Tvd; exact Tv|].
        exists u, b', Du, Db'. rewrite Evd. cbn [rbind]. rewrite Eb. cbn [rbind]. split; [reflexivity|]. split; [exact Hu|]. split; [exact Hb|]. split; [exact Tu|]. split; [rewrite Tb, !bdual_dual; reflexivity|]. split; [exact Ru|]. split; [rewrite Rb, Rvd, Rv; apply qinv_e|]. split; [reflexivity|].
        intros c i j Hc Hi Hj. rewrite Vb, Vvd by (rewrite ?sizes_dual; assumption). reflexivity.
      - destruct (@scale3 u q1 Du Dq1 (dual x) p k' Hu Tu Hq1 Tq1 Rq1) as (ud & Dud & Eud & Tud & Hud & Rud & Vud). destruct (@perm3 v Dv (dual p') (dual x') k' Hv Tv) as (b' & Db' & Eb & Tb & Hb & Rb & Vb).
        exists ud, b', Dud, Db'. rewrite Eud. cbn [rbind]. rewrite Eb. cbn [rbind]. split; [reflexivity|]. split; [exact Hud|]. split; [exact Hb|]. split; [rewrite Tud; exact Tu|]. split; [rewrite Tb, !bdual_dual; reflexivity|]. split; [rewrite Rud; exact Ru|]. split; [rewrite Rb, Rv; apply qinv_e|]. split.
        + intros i j c Hi Hj Hc. rewrite Vud by (rewrite ?sizes_dual; assumption). reflexivity.
        + intros c i j Hc Hi Hj. apply Vb. }
    destruct BB as (b & b' & Db & Db' & EBB & Hb & Hb' & Tb & Tb' & Rb & Rb' & Vb & Vb').
    assert (Sb : dsh Db = [bsz x; bsz p; bsz k']) by (rewrite (stored_shape Hb), Tb; cbn [map]; rewrite sizes_dual; reflexivity).
    assert (Sb' : dsh Db' = [bsz k'; bsz p'; bsz x']) by (rewrite (stored_shape Hb'), Tb'; cbn [map]; rewrite sizes_dual; reflexivity).
    exists Et, b, b', k', DEt, Db, Db'. split.
    { unfold b_site_update, site_update, merge. rewrite EM. cbn [obind]. rewrite EB. cbn [obind fst snd]. rewrite EC. cbn [obind]. f_equal. exact EBB. }
    split; [auto|]. split; [auto|]. split; [rewrite Rb, A5, RS; auto|]. split; [lia|].
    split; [exact (@pair_norm N _ _ _ _ _ Db Db' Du Dv dd fwd Sb Sb' Vb Vb' DR OU1 OV1 N1)|].
    split; [exact (@pair_used N _ _ _ _ _ Db Db' Du Dv dd fwd Sb Sb' Vb Vb' DR OU1 OV1)|].
    split; [fold sh; rewrite <- (@energy_ext N _ _ _ _ VS); exact LeU|].
    intros XC XM. destruct (CEX XC XM) as ((_ & _ & _ & TF) & TIS).
    assert (VA : forall i, in_range sh i = true -> dv DU i = schmidt (bsz k') Du (fun c => dv Dq [c]) Dv i).
    { intros i Hi. apply in_range4 in Hi as (j0 & j1 & j2 & j3 & -> & H0 & H1 & H2 & H3). apply (TF [j0; j1] [j2; j3]); cbn; rewrite !(proj2 (Nat.ltb_lt _ _)) by assumption; reflexivity. }
    assert (VP : forall i, in_range sh i = true -> rmul sg (pair_amp Db Db' i) = dv DU i).
    { intros i Hi. rewrite (@pair_schmidt N _ _ _ _ _ Db Db' Du Dv dd fwd Sb Sb' Vb Vb' DR i Hi), (VA i Hi). unfold schmidt. rewrite <- sumf_mul_l. apply sumf_ext. intros c Hc. apply in_seq in Hc. rewrite <- DM by lia. ring. }
    assert (S1 : sg = ro).
    { apply root_unique; [exact Ns|apply nn1|]. rewrite Ss, rmul_1_l, <- NU. symmetry. rewrite <- (@schmidt_norm_on N _ _ _ _ _ Du (fun c => dv Dq [c]) Dv OU OV RD). apply sprod_ext; exact VA. }
    split.
    - rewrite <- EnU. apply energy_ext. intros i Hi. rewrite <- VP by exact Hi. rewrite S1. ring.
    - intros HZ. destruct TIS as (T1 & T2); [intros e He; exact (HZ Et U DU e eq_refl A2 A4 NU He)|intros M HMM; exact (HISO Et U DU M eq_refl A2 A4 HMM)|].
      exact (@pair_iso N _ _ _ _ _ Db Db' Du Dv dd fwd Sb Sb' Vb Vb' DR T1 T2).
  Qed.
End B.

(** The block singular value decomposition seen through dense forms. *)
From Verif Require Import Base Quantity QuantityProofs FlatMap SpecFlatMap FlatMapProofs Ring Index SpecIndex Dense IndexProofs BTensor SpecBTensor LegsProofs
  BTensorProofs BTensorThms BTensorThms2 BTensorArith ArithProofs Tensordot SpecTensordot TensordotProofs TensordotThms Reshape SpecReshape ReshapeProofs ReshapeThms View SpecView ViewProofs ViewThms
  Chain SpecChain ChainProofs SpecSector SectorThms SpecSvd Edges SpecEdges EdgesProofs EdgesBlock BmmThms BSvd SvdPieces SvdProofs SvdThms SvdMain.
From Coq Require Import Permutation.
Set Implicit Arguments.

Section D.
  Variable G : abgroup.
  Variable R : ring.
  Notation t := (btensor G R).
  Notation e := (qe G).
  Add Ring Rr : (ring_th R).

  Lemma sum_list_flat A B (f : A -> list B) l : sum_list (map (fun a => length (f a)) l) = length (flat_map f l).
  Proof. induction l as [|x l IH]; [reflexivity|]. cbn [map flat_map]. rewrite sum_list_cons, app_length, IH. reflexivity. Qed.
  Lemma merged_total L : sum_list (merged_leg L) = prod_list (tots L).
  Proof.
    rewrite <- idxs_length, <- (Permutation_length (places_perm L)). unfold places, merged_leg. rewrite <- sum_list_flat. f_equal. apply map_ext. intros b.
    rewrite map_length, idxs_length. reflexivity.
  Qed.
  Lemma merged_len L : length (merged_leg L) = prod_list (lens L).
  Proof. unfold merged_leg. rewrite map_length, idxs_length. reflexivity. Qed.
  Lemma merged_nth L b : in_range (lens L) b = true -> nth (rowmajor (lens L) b) (merged_leg L) 0 = prod_list (pick 0 L b).
  Proof.
    intros H. unfold merged_leg. rewrite nth_indep with (d' := prod_list (pick 0 L [])) by (rewrite map_length, idxs_length; apply rowmajor_lt; exact H).
    rewrite (map_nth (fun b => prod_list (pick 0 L b))). f_equal. f_equal. apply nth_idxs. exact H.
  Qed.
  Lemma merged_qnth (Q : list (list G)) b : in_range (map (@length G) Q) b = true -> nth (rowmajor (map (@length G) Q) b) (merged_qleg G Q) e = qprod G (pick e Q b).
  Proof.
    intros H. unfold merged_qleg. rewrite nth_indep with (d' := qprod G (pick e Q [])) by (rewrite map_length, idxs_length; apply rowmajor_lt; exact H).
    rewrite (map_nth (fun b => qprod G (pick e Q b))). f_equal. f_equal. apply nth_idxs. exact H.
  Qed.
  Lemma sum_ranks s (f : nat -> R) : sumf R (fun i => f (rowmajor s i)) (idxs s) = sum x < prod_list s, f x.
  Proof.
    rewrite <- map_unrank_idxs, sumf_map. apply sumf_ext. intros x Hx. apply in_seq in Hx. rewrite rowmajor_unrank by lia. reflexivity.
  Qed.

  (** From blocks to dense forms. *)
  Lemma last_entry (U : t) L kl DU b o c z : valid U -> legs U = L ++ [kl] -> dense_form U DU -> in_range (lens L) b = true -> in_range (pick 0 L b) o = true ->
    c < length kl -> z < nth c kl 0 -> dv DU (place L b o ++ [sum_list (firstn c kl) + z]) = bentry U (b ++ [c]) (o ++ [z]).
  Proof.
    intros V E (_ & H) Hb Ho Hc Hz. pose proof (in_range_length _ _ Hb) as Lb. unfold lens in Lb. rewrite map_length in Lb.
    pose proof (in_range_length _ _ Ho) as Lo. rewrite pick_length in Lo by exact Lb.
    rewrite <- H.
    - rewrite E. rewrite place_app by auto. reflexivity.
    - rewrite <- (legs_lens (proj1 V)), E. unfold lens. rewrite map_app, in_range_app by (rewrite map_length; exact Lb). fold (lens L). rewrite Hb. cbn. rewrite (proj2 (Nat.ltb_lt _ _) Hc). reflexivity.
    - rewrite E, pick_app by exact Lb. rewrite in_range_app by (rewrite pick_length by exact Lb; exact Lo). rewrite Ho. cbn. rewrite (proj2 (Nat.ltb_lt _ _) Hz). reflexivity.
  Qed.
  Record split_blocks (T U d W : t) (L1 L2 : list (list nat)) (kl : list nat) : Prop := {
    sb_V : valid T /\ valid U /\ valid d /\ valid W;
    sb_T : legs T = L1 ++ L2; sb_U : legs U = L1 ++ [kl]; sb_d : legs d = [kl]; sb_W : legs W = L2 ++ [kl];
    sb_E : forall b1 o1 b2 o2, in_range (lens L1) b1 = true -> in_range (pick 0 L1 b1) o1 = true -> in_range (lens L2) b2 = true -> in_range (pick 0 L2 b2) o2 = true ->
      bentry T (b1 ++ b2) (o1 ++ o2) = sum c < length kl, sum z < nth c kl 0, rmul (rmul (bentry U (b1 ++ [c]) (o1 ++ [z])) (bentry d [c] [z])) (rconj (bentry W (b2 ++ [c]) (o2 ++ [z])));
  }.
  Lemma to_factors T U d W L1 L2 kl D DU Dd DW : split_blocks T U d W L1 L2 kl -> dense_form T D -> dense_form U DU -> dense_form d Dd -> dense_form W DW ->
    tensor_factors (tots L1) (tots L2) (sum_list kl) D DU Dd DW.
  Proof.
    intros [(VT & VU & Vd & VW) ET EU Ed EW HE] FT FU Fd FW. pose proof (proj1 FU) as SU. pose proof (proj1 Fd) as Sd. pose proof (proj1 FW) as SW.
    rewrite EU, map_app in SU. rewrite Ed in Sd. rewrite EW, map_app in SW. split; [exact SU|]. split; [exact Sd|]. split; [exact SW|].
    intros i j Hi Hj. destruct (unplace_spec L1 i Hi) as (B1 & O1 & P1). destruct (unplace_spec L2 j Hj) as (B2 & O2 & P2).
    set (b1 := blkL L1 i) in *. set (o1 := offL L1 i) in *. set (b2 := blkL L2 j) in *. set (o2 := offL L2 j) in *.
    pose proof (in_range_length _ _ B1) as Lb1. unfold lens in Lb1. rewrite map_length in Lb1. pose proof (in_range_length _ _ O1) as Lo1. rewrite pick_length in Lo1 by exact Lb1.
    transitivity (bentry T (b1 ++ b2) (o1 ++ o2)).
    - rewrite <- P1, <- P2, <- place_app by auto. rewrite <- ET. apply (proj2 FT).
      + rewrite <- (legs_lens (proj1 VT)), ET. unfold lens. rewrite map_app, in_range_app by (rewrite map_length; exact Lb1). apply andb_true_iff. split; [exact B1|exact B2].
      + rewrite ET, pick_app by exact Lb1. rewrite in_range_app by (rewrite pick_length by exact Lb1; exact Lo1). apply andb_true_iff. split; [exact O1|exact O2].
    - rewrite HE by auto. rewrite sum_sections. apply sumf_ext. intros c Hc. apply in_seq in Hc. apply sumf_ext. intros z Hz. apply in_seq in Hz. f_equal; [f_equal|f_equal].
      + rewrite <- P1 at 1. symmetry. eapply last_entry; eauto; lia.
      + symmetry. apply (@last_entry d [] kl Dd [] [] c z Vd Ed Fd eq_refl eq_refl); lia.
      + rewrite <- P2 at 1. symmetry. eapply last_entry; eauto; lia.
  Qed.
  Definition iso_split (L : list (list nat)) (kl : list nat) (U : t) : Prop := forall c c' z z', c < length kl -> c' < length kl -> z < nth c kl 0 -> z' < nth c' kl 0 ->
    sumf R (fun b => sumf R (fun o => rmul (rconj (bentry U (b ++ [c]) (o ++ [z]))) (bentry U (b ++ [c']) (o ++ [z']))) (idxs (pick 0 L b))) (idxs (lens L)) = if (c =? c') && (z =? z') then ro else rz.
  Lemma to_orthonormal (U : t) L kl DU : valid U -> legs U = L ++ [kl] -> dense_form U DU -> iso_split L kl U -> tensor_orthonormal (tots L) (sum_list kl) DU.
  Proof.
    intros V E F HI k k' Hk Hk'. pose proof (find_section_spec kl Hk) as (A1 & A2 & A3). pose proof (find_section_spec kl Hk') as (B1 & B2 & B3).
    set (c := fst (find_section kl k)) in *. set (z := snd (find_section kl k)) in *. set (c' := fst (find_section kl k')) in *. set (z' := snd (find_section kl k')) in *.
    replace (k =? k') with ((c =? c') && (z =? z')).
    2:{ destruct (Nat.eqb_spec k k') as [->|N]; [unfold c, c', z, z'; rewrite !Nat.eqb_refl; reflexivity|]. destruct (Nat.eqb_spec c c') as [Ec|]; [|reflexivity]. destruct (Nat.eqb_spec z z') as [Ez|]; [|reflexivity].
        exfalso. apply N. rewrite A3, B3, Ec, Ez. reflexivity. }
    rewrite <- (HI c c' z z' A1 B1 A2 B2), sum_places. apply sumf_ext. intros b Hb. apply idxs_In in Hb. apply sumf_ext. intros o Ho. apply idxs_In in Ho.
    rewrite A3, B3. rewrite (@last_entry U L kl DU b o c z), (@last_entry U L kl DU b o c' z') by auto. reflexivity.
  Qed.

  Definition hit (l : list slice) (i : nat) : nat * nat :=
    match find (fun '(b, (o, n)) => (o <=? i) && (i <? o + n)) l with Some (b, (o, n)) => (b, i - o) | None => (0, 0) end.
  Lemma tiling_cover sz l n i : tiling sz l n -> i < n -> exists b o m, In (b, (o, m)) l /\ o <= i < o + m.
  Proof.
    intros (_ & l' & P & H) Hi. assert (HX : exists b o m, In (b, (o, m)) l' /\ o <= i < o + m).
    { clear P. induction H as [|l0 n0 b H IH]; [lia|]. destruct (Nat.lt_ge_cases i n0) as [L|L].
      - destruct (IH L) as (b0 & o & m & HI & HB). exists b0, o, m. split; [apply in_or_app; left; exact HI|exact HB].
      - exists b, n0, (sz b). split; [apply in_or_app; right; left; reflexivity|lia]. }
    destruct HX as (b & o & m & HI & HB). exists b, o, m. split; [|exact HB]. eapply Permutation_in; eauto.
  Qed.
  Lemma hit_spec sz l n i : tiling sz l n -> i < n -> exists b o m, hit l i = (b, i - o) /\ In (b, (o, m)) l /\ o <= i /\ i - o < m /\ m = sz b.
  Proof.
    intros HT Hi. destruct (tiling_cover HT Hi) as (b & o & m & HI & HB). unfold hit.
    destruct (find _ l) as [(b', (o', m'))|] eqn:F.
    - apply find_some in F as (F1 & F2). apply andb_true_iff in F2 as (F2 & F3). apply Nat.leb_le in F2. apply Nat.ltb_lt in F3. exists b', o', m'. split; [reflexivity|]. split; [exact F1|]. split; [exact F2|]. split; [lia|]. apply (tiling_len _ _ _ HT F1).
    - exfalso. pose proof (find_none _ _ F _ HI) as FN. cbn in FN. apply andb_false_iff in FN as [FN|FN]; [apply Nat.leb_gt in FN|apply Nat.ltb_ge in FN]; lia.
  Qed.
  Lemma hit_inj sz l n i i' : tiling sz l n -> i < n -> i' < n -> hit l i = hit l i' -> i = i'.
  Proof.
    intros HT Hi Hi' E. destruct (hit_spec HT Hi) as (b & o & m & -> & I1 & B1 & B2 & _) in E. 
    destruct (hit_spec HT Hi') as (b' & o' & m' & -> & I1' & B1' & B2' & _) in E. injection E as <- E. destruct HT as (ND & _).
    assert ((o, m) = (o', m')) as [= <- <-]; [|lia]. clear - ND I1 I1'. induction l as [|(k, sl) l IH]; [destruct I1|]. cbn in ND. inversion ND as [|? ? N1 N2]; subst.
    destruct I1 as [I1|I1], I1' as [I2|I2].
    - congruence.
    - injection I1 as -> ->. exfalso. apply N1. apply (in_map fst) in I2. exact I2.
    - injection I2 as -> ->. exfalso. apply N1. apply (in_map fst) in I1. exact I1.
    - apply IH; auto.
  Qed.
  (** The pieces of a matrix whose rows and columns stand for indices of [T]. *)
  Section Sector.
    Variables (T M0 : t) (D : dense R) (s : nat) (lr lc : list nat) (qr qc : list G) (fr fc : nat -> nat -> list nat).
    Hypothesis V : valid M0.
    Hypothesis HL : legs M0 = [lr; lc].
    Hypothesis HQ : qlegs M0 = [qr; qc].
    Hypothesis HR : b_rule M0 = b_rule T.
    Hypothesis R1 : forall r x, r < length lr -> x < nth r lr 0 -> index_carries (firstn s (blegs T)) (fr r x) (nth r qr e).
    Hypothesis C1 : forall r x, r < length lc -> x < nth r lc 0 -> index_carries (skipn s (blegs T)) (fc r x) (nth r qc e).
    Hypothesis R2 : forall r x r' x', r < length lr -> x < nth r lr 0 -> r' < length lr -> x' < nth r' lr 0 -> fr r x = fr r' x' -> r = r' /\ x = x'.
    Hypothesis C2 : forall r x r' x', r < length lc -> x < nth r lc 0 -> r' < length lc -> x' < nth r' lc 0 -> fc r x = fc r' x' -> r = r' /\ x = x'.
    Hypothesis E1 : forall r x c y, r < length lr -> x < nth r lr 0 -> c < length lc -> y < nth c lc 0 -> bentry M0 [r; c] [x; y] = dv D (fr r x ++ fc c y).

    Lemma piece_sector M : piece_matrix M0 lr lc qr qc M -> sector_matrix s T D M.
    Proof.
      intros (k & rows & cols & (m & n & SM & TR & TC & KR & KC & (i0 & j0 & Hi0 & _) & VM) & _).
      assert (RI : forall i, In i (map fst rows) -> i < length lr /\ nth i qr e = fst k /\ qop G (fst k) (snd k) = b_rule T).
      { intros i Hi. apply KR in Hi as (j & (v & Hv) & K1 & K2). destruct (@stored_pair G R M0 lr lc qr qc V HL HQ _ _ Hv) as (i' & j' & EQ & Hi' & Hj' & HR' & _). injection EQ as <- <-. rewrite <- K1, <- K2, <- HR. auto. }
      assert (CI : forall j, In j (map fst cols) -> j < length lc /\ nth j qc e = snd k).
      { intros j Hj. apply KC in Hj as (i & (v & Hv) & K1 & K2). destruct (@stored_pair G R M0 lr lc qr qc V HL HQ _ _ Hv) as (i' & j' & EQ & Hi' & Hj' & HR' & _). injection EQ as <- <-. auto. }
      (* every row and column position *)
      assert (RP : forall i, i < m -> exists r o x, hit rows i = (r, x) /\ In (r, (o, nth r lr 0)) rows /\ i = o + x /\ x < nth r lr 0 /\ r < length lr /\ nth r qr e = fst k /\ qop G (fst k) (snd k) = b_rule T).
      { intros i Hi. destruct (hit_spec TR Hi) as (r & o & w & HH & I1 & B1 & B2 & ->). exists r, o, (i - o). unfold szr in *. split; [exact HH|]. split; [exact I1|]. split; [lia|]. split; [exact B2|]. apply RI. apply (in_map fst) in I1. exact I1. }
      assert (CP : forall i, i < n -> exists r o x, hit cols i = (r, x) /\ In (r, (o, nth r lc 0)) cols /\ i = o + x /\ x < nth r lc 0 /\ r < length lc /\ nth r qc e = snd k).
      { intros i Hi. destruct (hit_spec TC Hi) as (r & o & w & HH & I1 & B1 & B2 & ->). exists r, o, (i - o). unfold szc in *. split; [exact HH|]. split; [exact I1|]. split; [lia|]. split; [exact B2|]. apply CI. apply (in_map fst) in I1. exact I1. }
      exists m, n, (fun i => let '(r, x) := hit rows i in fr r x), (fun i => let '(r, x) := hit cols i in fc r x), (fst k), (snd k).
      split; [exact SM|]. split; [apply (RI i0 Hi0)|]. split; [|split; [|split; [|split]]].
      - intros i Hi. destruct (RP i Hi) as (r & o & x & -> & _ & _ & B1 & B2 & <- & _). apply R1; auto.
      - intros i Hi. destruct (CP i Hi) as (r & o & x & -> & _ & _ & B1 & B2 & <-). apply C1; auto.
      - intros i i' Hi Hi' E. apply (hit_inj TR Hi Hi'). destruct (RP i Hi) as (r & o & x & H1 & _ & _ & B1 & B2 & _). destruct (RP i' Hi') as (r' & o' & x' & H1' & _ & _ & B1' & B2' & _).
        rewrite H1, H1' in *. destruct (R2 B2 B1 B2' B1' E) as (-> & ->). reflexivity.
      - intros i i' Hi Hi' E. apply (hit_inj TC Hi Hi'). destruct (CP i Hi) as (r & o & x & H1 & _ & _ & B1 & B2 & _). destruct (CP i' Hi') as (r' & o' & x' & H1' & _ & _ & B1' & B2' & _).
        rewrite H1, H1' in *. destruct (C2 B2 B1 B2' B1' E) as (-> & ->). reflexivity.
      - intros i j Hi Hj. destruct (RP i Hi) as (r & o & x & -> & I1 & -> & B1 & B2 & _). destruct (CP j Hj) as (c & o' & y & -> & I2 & -> & B3 & B4 & _).
        rewrite (VM r o _ c o' _ x y I1 I2 B1 B3). apply E1; auto.
    Qed.
  End Sector.

  Lemma combine_tots L (Q : list (list G)) : length Q = length L -> map (@bsz G) (combine L Q) = tots L.
  Proof. revert Q; induction L as [|l L IH]; intros [|q Q] H; try discriminate; [reflexivity|]. cbn. f_equal. apply IH. cbn in H. lia. Qed.
  Lemma sections_combine L (Q : list (list G)) : length Q = length L -> sections (combine L Q) = prod_list (lens L).
  Proof. unfold sections, lens. revert Q; induction L as [|l L IH]; intros [|q Q] H; try discriminate; [reflexivity|]. cbn in *. rewrite IH by lia. reflexivity. Qed.
  Lemma dense_of (T : t) : valid T -> exists D, dense_form T D.
  Proof. intros V. destruct (to_dense_total V) as (D & _ & E & _). exists D. exact E. Qed.
  Lemma index_place L (Q : list (list G)) b o : map (@length G) Q = lens L -> in_range (lens L) b = true -> in_range (pick 0 L b) o = true ->
    index_carries (combine L Q) (place L b o) (qprod G (pick e Q b)).
  Proof.
    intros HQ Hb Ho. assert (LQ : length Q = length L) by (apply (f_equal (@length nat)) in HQ; unfold lens in HQ; rewrite !map_length in HQ; exact HQ).
    assert (LC : length (combine L Q) = length L) by (rewrite combine_length; lia).
    pose proof (in_range_length _ _ Hb) as Lb. unfold lens in Lb. rewrite map_length in Lb. pose proof (in_range_length _ _ Ho) as Lo. rewrite pick_length in Lo by exact Lb.
    assert (LP : length (place L b o) = length L).
    { destruct (place_spec _ _ _ Hb Ho) as (P & _). apply in_range_length in P. unfold tots in P. rewrite map_length in P. exact P. }
    split; [congruence|]. exists (pick e Q b). split; [rewrite pick_length; congruence|]. split; [|reflexivity].
    rewrite LC. clear LC LP. revert Q b o HQ LQ Hb Ho Lb Lo. induction L as [|l L IH]; intros [|q0 Q] [|x b] [|y o]; try discriminate; [cbn; intros; lia|].
    intros HQ LQ Hb Ho Lb Lo d Hd. cbn in HQ. injection HQ as HQ1 HQ2. cbn [lens map] in Hb. apply in_range_cons in Hb as (Hb1 & Hb2). cbn [pick] in Ho. apply in_range_cons in Ho as (Ho1 & Ho2).
    destruct d as [|d]; cbn [combine nth place pick].
    - exists x, y. split; [|reflexivity]. split; [exact Hb1|]. split; [exact Ho1|reflexivity].
    - apply IH; auto; cbn in *; lia.
  Qed.
  Lemma blegs_of (T : t) L Q : legs T = L -> qlegs T = Q -> blegs T = combine L Q. Proof. intros <- <-. reflexivity. Qed.

  (** Undoing the grouping of all dimensions but the last one. *)
  Lemma pair_rank (L : list (list nat)) n a b : in_range [prod_list (lens L); n] a = true -> in_range (lens L ++ [n]) b = true -> rowmajor [prod_list (lens L); n] a = rowmajor (lens L ++ [n]) b ->
    exists b' c, b = b' ++ [c] /\ a = [rowmajor (lens L) b'; c] /\ in_range (lens L) b' = true /\ c < n.
  Proof.
    intros Ha Hb E. pose proof (in_range_length _ _ Hb) as LB. rewrite app_length in LB. cbn in LB.
    assert (NB : b <> []) by (intros ->; cbn in LB; lia). destruct (exists_last NB) as (b' & c & ->). rewrite app_length in LB. cbn in LB. assert (LB' : length b' = length (lens L)) by lia.
    rewrite in_range_app in Hb by exact LB'. apply andb_true_iff in Hb as (Hb & Hc). cbn in Hc. rewrite andb_true_r in Hc. apply Nat.ltb_lt in Hc.
    exists b', c. split; [reflexivity|]. split; [|split; [exact Hb|exact Hc]]. apply (rowmajor_inj [prod_list (lens L); n]); [exact Ha| |].
    - cbn. rewrite (proj2 (Nat.ltb_lt _ _) (rowmajor_lt _ _ Hb)), (proj2 (Nat.ltb_lt _ _) Hc). reflexivity.
    - rewrite E, rowmajor_app by exact LB'. cbn. lia.
  Qed.
  Lemma lens_app (L : list (list nat)) k : lens (L ++ [k]) = lens L ++ [length k]. Proof. unfold lens. apply map_app. Qed.
  Lemma unsplit (X O : t) L Q kl kq : valid X -> legs X = [merged_leg L; kl] -> qlegs X = [merged_qleg G Q; kq] -> map (@length G) Q = lens L ->
    meta_ok O -> legs O = L ++ [kl] -> qlegs O = Q ++ [kq] -> (forall n, In n (lens L) -> 0 < n) -> 0 < length kl ->
    exists Y, reshape_as false X O = Ok Y /\ valid Y /\ b_rule Y = b_rule X /\ legs Y = L ++ [kl] /\ qlegs Y = Q ++ [kq] /\
      forall b o c z, in_range (lens L) b = true -> in_range (pick 0 L b) o = true -> c < length kl -> z < nth c kl 0 ->
        bentry Y (b ++ [c]) (o ++ [z]) = bentry X [rowmajor (lens L) b; c] [rowmajor (pick 0 L b) o; z].
  Proof.
    intros V HL HQ NQ MO OL OQ HP HK.
    assert (SX : b_sbd X = [prod_list (lens L); length kl]) by (rewrite <- (legs_lens (proj1 V)), HL; cbn; rewrite merged_len; reflexivity).
    assert (SO : b_sbd O = lens L ++ [length kl]) by (rewrite <- (legs_lens MO), OL; apply lens_app).
    assert (HQ' : length kq = length kl).
    { pose proof (qlegs_lens (proj1 V)) as NX. rewrite HQ, SX in NX. cbn in NX. injection NX as _ NX. exact NX. }
    assert (LQ : length Q = length L) by (apply (f_equal (@length nat)) in NQ; unfold lens in NQ; rewrite !map_length in NQ; exact NQ).
    assert (PX : forall b c, in_range (lens L) b = true -> pick 0 (legs X) [rowmajor (lens L) b; c] = [prod_list (pick 0 L b); nth c kl 0]) by (intros b c Hb; rewrite HL; cbn [pick]; rewrite merged_nth by exact Hb; reflexivity).
    assert (PO : forall b c, in_range (lens L) b = true -> pick 0 (legs O) (b ++ [c]) = pick 0 L b ++ [nth c kl 0]).
    { intros b c Hb. rewrite OL, pick_app; [reflexivity|]. apply in_range_length in Hb. unfold lens in Hb. rewrite map_length in Hb. exact Hb. }
    destruct (@reshape_as_accepts G R X O V MO) as (Y & E & VY & RY & LY & QY & SE).
    - rewrite SX. intros n [<-|[<-|[]]]; [apply prod_pos; exact HP|exact HK].
    - split; [rewrite SX, SO, prod_list_app; cbn; lia|]. rewrite SX, SO. intros a b (H1 & H2 & H3). destruct (@pair_rank L (length kl) a b H1 H2 H3) as (b' & c & -> & -> & Hb' & Hc). rewrite PX, PO, prod_list_app by exact Hb'. cbn. lia.
    - unfold same_fluxes. rewrite SX, SO. intros a b (H1 & H2 & H3). destruct (@pair_rank L (length kl) a b H1 H2 H3) as (b' & c & -> & -> & Hb' & Hc). rewrite HQ, OQ. cbn [pick]. rewrite <- NQ in *. rewrite merged_qnth by exact Hb'.
      rewrite pick_app by (apply in_range_length in Hb'; rewrite map_length in Hb'; exact Hb'). rewrite qprod_app. cbn. rewrite !qop_e_r. reflexivity.
    - exists Y. split; [exact E|]. split; [exact VY|]. split; [exact RY|]. split; [congruence|]. split; [congruence|]. intros b o c z Hb Ho Hc Hz.
      assert (SY : b_sbd Y = lens L ++ [length kl]) by (rewrite <- (legs_lens (proj1 VY)), LY, OL; apply lens_app).
      pose proof (in_range_length _ _ Hb) as Lb. assert (Lb' : length b = length L) by (unfold lens in Lb; rewrite map_length in Lb; exact Lb). pose proof (in_range_length _ _ Ho) as Lo.
      refine (proj2 (SE [rowmajor (lens L) b; c] (b ++ [c]) _) [rowmajor (pick 0 L b) o; z] (o ++ [z]) _).
      + rewrite SX, SY. split; [|split].
        * cbn. rewrite (proj2 (Nat.ltb_lt _ _) (rowmajor_lt _ _ Hb)), (proj2 (Nat.ltb_lt _ _) Hc). reflexivity.
        * rewrite in_range_app, Hb by exact Lb. cbn. rewrite (proj2 (Nat.ltb_lt _ _) Hc). reflexivity.
        * rewrite rowmajor_app by exact Lb. cbn. lia.
      + rewrite PX, LY, PO by exact Hb. split; [|split].
        * cbn. rewrite (proj2 (Nat.ltb_lt _ _) (rowmajor_lt _ _ Ho)), (proj2 (Nat.ltb_lt _ _) Hz). reflexivity.
        * rewrite in_range_app, Ho by exact Lo. cbn. rewrite (proj2 (Nat.ltb_lt _ _) Hz). reflexivity.
        * rewrite rowmajor_app by exact Lo. cbn. lia.
  Qed.
  Lemma merged_dual (Q : list (list G)) : map (qinv G) (merged_qleg G Q) = merged_qleg G (map (map (qinv G)) Q).
  Proof.
    unfold merged_qleg. rewrite map_map. replace (map (@length G) (map (map (qinv G)) Q)) with (map (@length G) Q) by (rewrite map_map; apply map_ext; intros l; symmetry; apply map_length).
    apply map_ext_in. intros b Hb. apply idxs_In in Hb. revert b Hb. induction Q as [|q0 Q IH]; intros [|x b] Hb; try discriminate; [apply qinv_e|]. cbn [map] in Hb. apply in_range_cons in Hb as (H1 & H2).
    cbn [map pick]. change (qprod G (nth x q0 e :: pick e Q b)) with (qop G (nth x q0 e) (qprod G (pick e Q b))). rewrite qinv_op, (IH b H2).
    rewrite (nth_indep (map (qinv G) q0) e (qinv G e)) by (rewrite map_length; exact H1). rewrite map_nth. reflexivity.
  Qed.
  Lemma unpack2 A s (l : list A) : s <= length l -> unpack [s; length l - s] l = [firstn s l; skipn s l].
  Proof. intros H. cbn [unpack]. rewrite (firstn_all2 (skipn s l)) by (rewrite skipn_length; lia). reflexivity. Qed.

  Lemma real_of (d : t) kl Dd : valid d -> legs d = [kl] -> dense_form d Dd -> (forall c z, c < length kl -> z < nth c kl 0 -> rconj (bentry d [c] [z]) = bentry d [c] [z]) -> real_entries Dd.
  Proof.
    intros V HL (S & E) H i Hi. rewrite S, HL in Hi. cbn [map] in Hi. destruct i as [|x [|]]; try discriminate; [|cbn in Hi; rewrite andb_false_r in Hi; discriminate]. cbn in Hi. rewrite andb_true_r in Hi. apply Nat.ltb_lt in Hi.
    destruct (find_section_spec kl Hi) as (H1 & H2 & H3). set (c := fst (find_section kl x)) in *. set (z := snd (find_section kl x)) in *.
    assert (E1 : dv Dd [x] = bentry d [c] [z]).
    { rewrite <- (E [c] [z]).
      - rewrite HL. cbn. rewrite <- H3. reflexivity.
      - rewrite <- (legs_lens (proj1 V)), HL. cbn. rewrite (proj2 (Nat.ltb_lt _ _) H1). reflexivity.
      - rewrite HL. cbn. rewrite (proj2 (Nat.ltb_lt _ _) H2). reflexivity. }
    rewrite E1. apply H; assumption.
  Qed.

  Section Main.
    Variable dsvd : dense R -> dense R * dense R * dense R.
    (** The matrices decomposed. *)
    Definition taken (T : t) (M : dense R) : Prop := exists rows cols, compacted T (M, rows, cols).
    Definition taken_split (s : nat) (T : t) (M : dense R) : Prop := exists rT, reshape T [s] = Ok rT /\ taken rT M.
    (** The matrix case. *)
    Theorem svd_matrix_pieces (T : t) D : valid T -> nonempty T -> b_rank T = 2 -> dense_form T D -> (forall M, sector_matrix 1 T D M -> taken T M -> thin M (dsvd M)) ->
      exists U d W k, svd dsvd T = Ok (U, d, W) /\ decomposition 1 T D U d W k /\ ((forall M, sector_matrix 1 T D M -> taken T M -> isometries M (dsvd M)) -> isometric 1 T U W k) /\
        ((forall M, sector_matrix 1 T D M -> taken T M -> real_entries (snd (fst (dsvd M)))) -> forall Dd, dense_form d Dd -> real_entries Dd) /\
        (forall c, c < length (fst k) -> exists M, sector_matrix 1 T D M /\ taken T M /\ holds_sector 1 T M /\ In ([c], snd (fst (dsvd M))) (b_blocks d)).
    Proof.
      intros V N R2 FD HO. pose proof (legs_length (proj1 V)) as LL. pose proof (qlegs_length (proj1 V)) as LQ. pose proof (legs_lens (proj1 V)) as NL. pose proof (qlegs_lens (proj1 V)) as NQ.
      rewrite R2 in LL, LQ. destruct (legs T) as [|lr [|lc [|]]] eqn:HL; try discriminate. destruct (qlegs T) as [|qr [|qc [|]]] eqn:HQ; try discriminate.
      rewrite <- NL in NQ. cbn in NQ. injection NQ as N1 N2.
      assert (BT : blegs T = [(lr, qr); (lc, qc)]) by (unfold blegs; rewrite HL, HQ; reflexivity).
      assert (PS : forall M, piece_matrix T lr lc qr qc M -> sector_matrix 1 T D M).
      { apply (@piece_sector T T D 1 lr lc qr qc (fun r x => [sum_list (firstn r lr) + x]) (fun r x => [sum_list (firstn r lc) + x]) V HL HQ eq_refl).
        - intros r x Hr Hx. rewrite BT. cbn [firstn]. pose proof (@index_place [lr] [qr] [r] [x]) as P. cbn in P. rewrite N1, (proj2 (Nat.ltb_lt _ _) Hr), (proj2 (Nat.ltb_lt _ _) Hx), qop_e_r in P. apply P; reflexivity.
        - intros r x Hr Hx. rewrite BT. cbn [skipn]. pose proof (@index_place [lc] [qc] [r] [x]) as P. cbn in P. rewrite N2, (proj2 (Nat.ltb_lt _ _) Hr), (proj2 (Nat.ltb_lt _ _) Hx), qop_e_r in P. apply P; reflexivity.
        - intros r x r' x' H1 H2 H3 H4 E. injection E as E. assert (Z1 : located lr (sum_list (firstn r lr) + x) r x) by (split; auto). assert (Z2 : located lr (sum_list (firstn r lr) + x) r' x') by (split; [|split]; auto).
          apply find_section_unique in Z1, Z2. rewrite Z1 in Z2. injection Z2 as -> ->. auto.
        - intros r x r' x' H1 H2 H3 H4 E. injection E as E. assert (Z1 : located lc (sum_list (firstn r lc) + x) r x) by (split; auto). assert (Z2 : located lc (sum_list (firstn r lc) + x) r' x') by (split; [|split]; auto).
          apply find_section_unique in Z1, Z2. rewrite Z1 in Z2. injection Z2 as -> ->. auto.
        - intros r x c y H1 H2 H3 H4. rewrite <- (proj2 FD [r; c] [x; y]).
          + rewrite HL. reflexivity.
          + rewrite <- NL. cbn. rewrite (proj2 (Nat.ltb_lt _ _) H1), (proj2 (Nat.ltb_lt _ _) H3). reflexivity.
          + rewrite HL. cbn. rewrite (proj2 (Nat.ltb_lt _ _) H2), (proj2 (Nat.ltb_lt _ _) H4). reflexivity. }
      assert (PT : forall M, piece_matrix T lr lc qr qc M -> taken T M) by (intros M (k & rows & cols & _ & HC); exists rows, cols; exact HC).
      destruct (@svd_ok G R dsvd T lr lc qr qc V HL HQ N (fun M H => HO M (PS M H) (PT M H))) as (U & d & W & kl & kq & E & DC & _ & _ & HI & HRE).
      destruct DC as [(VU & Vd & VW) (u1 & u2 & u3) (d1 & d2 & d3) (w1 & w2 & w3) (LK & NDK) ((LB1 & LB2) & SB1 & SB2) HE].
      exists U, d, W, (kl, kq). split; [exact E|].
      assert (SB : split_blocks T U d W [lr] [lc] kl).
      { constructor; auto. intros [|a [|]] [|x [|]] [|b [|]] [|y [|]] H1 H2 H3 H4; try discriminate; try (cbn in H1; rewrite ?andb_false_r in H1; discriminate); try (cbn in H2; rewrite ?andb_false_r in H2; discriminate); try (cbn in H3; rewrite ?andb_false_r in H3; discriminate); try (cbn in H4; rewrite ?andb_false_r in H4; discriminate).
        cbn [app]. cbn in H1, H2, H3, H4. rewrite andb_true_r in H1, H2, H3, H4. apply Nat.ltb_lt in H1, H2, H3, H4. apply HE; auto. }
      destruct (dense_of VU) as (DU & FU). destruct (dense_of Vd) as (Dd & Fd). destruct (dense_of VW) as (DW & FW).
      split; [|split; [|split]].
      - split; [exact VU|]. split; [exact Vd|]. split; [exact VW|]. split; [exact LK|]. split; [exact NDK|]. split; [rewrite BT; cbn; lia|]. split; [rewrite BT; cbn; lia|]. split; [rewrite BT; cbn [firstn map prod_list fold_right]; unfold bsz; cbn [fst]; lia|]. split; [rewrite BT; cbn [skipn map prod_list fold_right]; unfold bsz; cbn [fst]; lia|]. unfold blegs at 1 3 4. rewrite u1, u2, d1, d2, w1, w2. rewrite BT. split; [reflexivity|]. split; [reflexivity|]. split; [reflexivity|].
        split; [exact u3|]. split; [exact d3|]. split; [exact w3|]. exists DU, Dd, DW. split; [exact FU|]. split; [exact Fd|]. split; [exact FW|]. exact (to_factors SB FD FU Fd FW).
      - intros HIS. destruct (HI (fun M H => HIS M (PS M H) (PT M H))) as (I1 & I2). clear DU Dd DW FU Fd FW. intros DU DW FU FW. rewrite BT. cbn [firstn skipn map]. split.
        + apply (@to_orthonormal U [lr] kl DU VU u1 FU). intros c c' z z' H1 H2 H3 H4. rewrite <- (I1 c c' z z' H1 H2 H3 H4). cbn [lens map]. rewrite sum_idxs1. apply sumf_ext. intros a _. cbn [pick]. rewrite sum_idxs1. reflexivity.
        + apply (@to_orthonormal W [lc] kl DW VW w1 FW). intros c c' z z' H1 H2 H3 H4. rewrite <- (I2 c c' z z' H1 H2 H3 H4). cbn [lens map]. rewrite sum_idxs1. apply sumf_ext. intros a _. cbn [pick]. rewrite sum_idxs1. reflexivity.
      - intros HR Dd' Fd'. apply (real_of Vd d1 Fd'). intros c z Hc Hz. destruct (HRE c Hc) as (M & HM & EA & ES'). unfold bentry. rewrite EA. apply (HR M (PS M HM) (PT M HM)). rewrite ES'. cbn. rewrite (proj2 (Nat.ltb_lt _ _) Hz). reflexivity.
      - intros c Hc. cbn [fst] in Hc. destruct (HRE c Hc) as (M & HM & EA & _). exists M. split; [exact (PS M HM)|]. split; [exact (PT M HM)|]. split; [|apply assoc_nodup; [apply sorted_nodup, Vd|exact EA]].
        destruct (@piece_block G R dsvd T lr lc qr qc V HL HQ M HM) as (i & j & v & Hv & Hi & Hj & HE'). exists [i; j], v. split; [exact Hv|]. intros b' v' Hv' EQ. destruct (@stored_pair G R T lr lc qr qc V HL HQ _ _ Hv') as (i' & j' & -> & _ & _ & _ & SV). rewrite SV.
        unfold block_quantity in EQ. rewrite HQ in EQ. cbn in EQ. rewrite !qop_e_r in EQ. intros o Ho. destruct o as [|x [|y [|]]]; try discriminate; try (cbn in Ho; rewrite ?andb_false_r in Ho; discriminate).
        cbn in Ho. rewrite andb_true_r, andb_true_iff, !Nat.ltb_lt in Ho. destruct (HE' i' j' v' Hv' EQ x y (proj1 Ho) (proj2 Ho)) as (p & Hp & Ep). exists p. split; [exact Hp|]. rewrite Ep. unfold bentry. rewrite (proj2 (assoc_nodup (b_blocks T) _ _ (sorted_nodup (proj2 (proj2 V)))) Hv'). reflexivity.
    Qed.

    Theorem svd_matrix (T : t) D : valid T -> nonempty T -> b_rank T = 2 -> dense_form T D -> (forall M, sector_matrix 1 T D M -> thin M (dsvd M)) ->
      exists U d W k, svd dsvd T = Ok (U, d, W) /\ decomposition 1 T D U d W k /\ ((forall M, sector_matrix 1 T D M -> isometries M (dsvd M)) -> isometric 1 T U W k) /\
        ((forall M, sector_matrix 1 T D M -> real_entries (snd (fst (dsvd M)))) -> forall Dd, dense_form d Dd -> real_entries Dd) /\
        section_values 1 T D (fun M => snd (fst (dsvd M))) d (length (fst k)).
    Proof.
      intros V N R2 FD HO. destruct (@svd_matrix_pieces T D V N R2 FD (fun M H _ => HO M H)) as (U & d & W & k & E & DC & HI & HR & HV). exists U, d, W, k. split; [exact E|]. split; [exact DC|].
      split; [intros H; apply HI; intros M HM _; exact (H M HM)|]. split; [intros H; apply HR; intros M HM _; exact (H M HM)|]. intros c Hc. destruct (HV c Hc) as (M & H1 & _ & H2 & H3). exists M. auto.
    Qed.

    (** The general case: dimensions before and after [s]. *)
    Theorem svd_split_pieces (T : t) D s : valid T -> nonempty T -> 0 < s < b_rank T -> b_blocks T <> [] -> dense_form T D -> (forall M, sector_matrix s T D M -> taken_split s T M -> thin M (dsvd M)) ->
      exists U d W k, svd_split dsvd T s = Ok (U, d, W) /\ decomposition s T D U d W k /\ ((forall M, sector_matrix s T D M -> taken_split s T M -> isometries M (dsvd M)) -> isometric s T U W k) /\
        ((forall M, sector_matrix s T D M -> taken_split s T M -> real_entries (snd (fst (dsvd M)))) -> forall Dd, dense_form d Dd -> real_entries Dd) /\
        (forall c, c < length (fst k) -> exists M, sector_matrix s T D M /\ taken_split s T M /\ holds_sector s T M /\ In ([c], snd (fst (dsvd M))) (b_blocks d)).
    Proof.
      intros V N Hs NB FD HO. pose proof (legs_length (proj1 V)) as LL. pose proof (qlegs_length (proj1 V)) as LQ. pose proof (legs_lens (proj1 V)) as NL. pose proof (qlegs_lens (proj1 V)) as NQ.
      set (r := b_rank T) in *. set (L1 := firstn s (legs T)). set (L2 := skipn s (legs T)). set (Q1 := firstn s (qlegs T)). set (Q2 := skipn s (qlegs T)).
      assert (LT : legs T = L1 ++ L2) by (symmetry; apply firstn_skipn). assert (QT : qlegs T = Q1 ++ Q2) by (symmetry; apply firstn_skipn).
      assert (len1 : length L1 = s) by (unfold L1; rewrite firstn_length; lia). assert (qlen1 : length Q1 = s) by (unfold Q1; rewrite firstn_length; lia).
      assert (len2 : length L2 = r - s) by (unfold L2; rewrite skipn_length; lia). assert (qlen2 : length Q2 = r - s) by (unfold Q2; rewrite skipn_length; lia).
      assert (NQ1 : map (@length G) Q1 = lens L1 /\ map (@length G) Q2 = lens L2).
      { rewrite <- NL, LT, QT in NQ. unfold lens in *. rewrite !map_app in NQ. apply app_inj_len in NQ; [exact NQ|]. rewrite !map_length. congruence. }
      destruct NQ1 as (NQ1 & NQ2).
      assert (CUT : forall A (x y : list A), length x = s -> firstn s (x ++ y) = x /\ skipn s (x ++ y) = y).
      { intros A x y <-. rewrite firstn_app, skipn_app, Nat.sub_diag, firstn_all, skipn_all. cbn. rewrite app_nil_r. auto. }
      assert (CC : blegs T = combine L1 Q1 ++ combine L2 Q2).
      { unfold blegs. rewrite LT, QT. assert (EL : length L1 = length Q1) by congruence. revert EL. clear. generalize L1 Q1. intros l. induction l as [|x l IH]; intros [|y q0] E1; try discriminate; [reflexivity|]. cbn [app combine]. f_equal. apply IH. cbn in E1. lia. }
      destruct (CUT _ (combine L1 Q1) (combine L2 Q2)) as (HB1 & HB2); [rewrite combine_length; lia|]. rewrite <- CC in HB1, HB2.
      assert (SP : b_sbd T = lens L1 ++ lens L2) by (rewrite <- NL, LT; unfold lens; apply map_app).
      assert (HS : forall n, In n (b_sbd T) -> 0 < n) by (apply nonempty_sbd; [apply V|exact N]).
      assert (HS1 : forall n, In n (lens L1) -> 0 < n) by (intros n Hn; apply HS; rewrite SP; apply in_or_app; left; exact Hn).
      assert (HS2 : forall n, In n (lens L2) -> 0 < n) by (intros n Hn; apply HS; rewrite SP; apply in_or_app; right; exact Hn).
      destruct (@reshape_spec G R T [s; r - s] V) as (M0 & EM & VM & (RG1 & RG2 & RG3 & RG4 & RG5 & RG6) & _); [| |exact HS|].
      { split; [intros n [<-|[<-|[]]]; lia|]. cbn. unfold r. lia. } { fold r. lia. }
      assert (U1 : forall A (l : list A), length l = r -> unpack [s; r - s] l = [firstn s l; skipn s l]) by (intros A l E; rewrite <- E; apply unpack2; lia).
      rewrite U1 in RG3 by exact LL. rewrite U1 in RG4 by exact LQ. cbn [map] in RG3, RG4. fold L1 L2 in RG3. fold Q1 Q2 in RG4. change (boundaries [s; r - s]) with [s] in EM.
      assert (NM : nonempty M0).
      { intros l Hl. rewrite RG3 in Hl. destruct Hl as [<-|[<-|[]]]; rewrite merged_total; apply prod_pos; intros n Hn; apply in_map_iff in Hn as (l & <- & Hl); apply N; rewrite LT; apply in_or_app; auto. }
      assert (GE : forall b1 b2 o1 o2, in_range (lens L1) b1 = true -> in_range (lens L2) b2 = true -> in_range (pick 0 L1 b1) o1 = true -> in_range (pick 0 L2 b2) o2 = true ->
        bentry M0 [rowmajor (lens L1) b1; rowmajor (lens L2) b2] [rowmajor (pick 0 L1 b1) o1; rowmajor (pick 0 L2 b2) o2] = bentry T (b1 ++ b2) (o1 ++ o2) /\ dv D (place L1 b1 o1 ++ place L2 b2 o2) = bentry T (b1 ++ b2) (o1 ++ o2)).
      { intros b1 b2 o1 o2 H1 H2 H3 H4. pose proof (in_range_length _ _ H1) as B1. pose proof (in_range_length _ _ H2) as B2. unfold lens in B1, B2. rewrite map_length in B1, B2.
        pose proof (in_range_length _ _ H3) as O1. pose proof (in_range_length _ _ H4) as O2. rewrite pick_length in O1, O2 by congruence.
        assert (IB : in_range (b_sbd T) (b1 ++ b2) = true) by (rewrite SP, in_range_app by (unfold lens; rewrite map_length; exact B1); rewrite H1, H2; reflexivity).
        assert (PT : pick 0 (legs T) (b1 ++ b2) = pick 0 L1 b1 ++ pick 0 L2 b2) by (rewrite LT; apply pick_app; exact B1).
        assert (IO : in_range (pick 0 (legs T) (b1 ++ b2)) (o1 ++ o2) = true) by (rewrite PT, in_range_app by (rewrite pick_length by exact B1; exact O1); rewrite H3, H4; reflexivity).
        split.
        - rewrite <- (RG6 _ _ IB IO). unfold grouped. rewrite !U1 by (rewrite ?PT, ?SP, ?app_length, ?pick_length by congruence; unfold lens; rewrite ?map_length; lia).
          rewrite PT, SP. destruct (CUT _ (lens L1) (lens L2)) as (-> & ->); [unfold lens; rewrite map_length; exact len1|]. destruct (CUT _ b1 b2) as (-> & ->); [congruence|].
          destruct (CUT _ (pick 0 L1 b1) (pick 0 L2 b2)) as (-> & ->); [rewrite pick_length; congruence|]. destruct (CUT _ o1 o2) as (-> & ->); [congruence|]. reflexivity.
        - rewrite <- place_app by congruence. rewrite <- LT. apply (proj2 FD); assumption. }
      set (fr := fun (L : list (list nat)) a x => place L (unrank (lens L) a) (unrank (pick 0 L (unrank (lens L) a)) x)).
      assert (FR : forall L a x, a < length (merged_leg L) -> x < nth a (merged_leg L) 0 -> exists b o, in_range (lens L) b = true /\ in_range (pick 0 L b) o = true /\ a = rowmajor (lens L) b /\ x = rowmajor (pick 0 L b) o /\ fr L a x = place L b o).
      { intros L a x Ha Hx. rewrite merged_len in Ha. pose proof (@unrank_in_range _ _ Ha) as Hb. pose proof (@rowmajor_unrank _ _ Ha) as Eb. rewrite <- Eb, merged_nth in Hx by exact Hb.
        exists (unrank (lens L) a), (unrank (pick 0 L (unrank (lens L) a)) x). split; [exact Hb|]. split; [apply unrank_in_range; exact Hx|]. split; [auto|]. split; [symmetry; apply rowmajor_unrank; exact Hx|reflexivity]. }
      assert (FI : forall L a x a' x', a < length (merged_leg L) -> x < nth a (merged_leg L) 0 -> a' < length (merged_leg L) -> x' < nth a' (merged_leg L) 0 -> fr L a x = fr L a' x' -> a = a' /\ x = x').
      { intros L a x a' x' H1 H2 H3 H4 E. destruct (FR L a x H1 H2) as (b & o & B1 & B2 & -> & -> & F1). destruct (FR L a' x' H3 H4) as (b' & o' & B1' & B2' & -> & -> & F1').
        destruct (place_spec _ _ _ B1 B2) as (_ & P1 & P2). destruct (place_spec _ _ _ B1' B2') as (_ & P1' & P2'). rewrite F1, F1' in E. rewrite <- E in P1', P2'. assert (Eb : b' = b) by congruence. assert (Eo : o' = o) by congruence. rewrite Eb, Eo. split; reflexivity. }
      assert (FC : forall L Q a x, map (@length G) Q = lens L -> a < length (merged_leg L) -> x < nth a (merged_leg L) 0 -> index_carries (combine L Q) (fr L a x) (nth a (merged_qleg G Q) e)).
      { intros L Q a x EQ H1 H2. destruct (FR L a x H1 H2) as (b & o & B1 & B2 & -> & -> & ->). rewrite <- EQ, merged_qnth by (rewrite EQ; exact B1). apply index_place; auto. }
      assert (PS : forall M, piece_matrix M0 (merged_leg L1) (merged_leg L2) (merged_qleg G Q1) (merged_qleg G Q2) M -> sector_matrix s T D M).
      { apply (@piece_sector T M0 D s _ _ _ _ (fr L1) (fr L2) VM RG3 RG4 RG1).
        - intros a x H1 H2. rewrite HB1. apply FC; auto.
        - intros a x H1 H2. rewrite HB2. apply FC; auto.
        - apply FI.
        - apply FI.
        - intros a x c y H1 H2 H3 H4. destruct (FR L1 a x H1 H2) as (b & o & B1 & B2 & -> & -> & ->). destruct (FR L2 c y H3 H4) as (b' & o' & B1' & B2' & -> & -> & ->).
          destruct (GE b b' o o' B1 B1' B2 B2') as (G1 & G2). congruence. }
      assert (PT : forall M, piece_matrix M0 (merged_leg L1) (merged_leg L2) (merged_qleg G Q1) (merged_qleg G Q2) M -> taken_split s T M) by (intros M (k & rows & cols & _ & HC); exists M0; split; [exact EM|]; exists rows, cols; exact HC).
      destruct (@svd_ok G R dsvd M0 _ _ _ _ VM RG3 RG4 NM (fun M H => HO M (PS M H) (PT M H))) as (rU & d & rW & kl & kq & E & DC & _ & HK & HI & HRE).
      destruct DC as [(VU & Vd & VW) (u1 & u2 & u3) (d1 & d2 & d3) (w1 & w2 & w3) (LK & NDK) ((LB1 & LB2) & SB1 & SB2) HE].
      assert (KP : 0 < length kl).
      { destruct (b_blocks T) as [|(b, v) bs] eqn:EB; [congruence|]. assert (HIb : in_range (b_sbd T) b = true).
        { assert (AL : allowed T b) by (apply (proj1 (proj2 V)) with (t := v); rewrite EB; left; reflexivity). apply AL. }
        destruct (proj2 (RG5 b HIb)) as (v' & Hv'); [exists v; rewrite EB; left; reflexivity|]. eapply HK. exact Hv'. }
      rewrite merged_dual in w2.
      assert (NQ2' : map (@length G) (map (map (qinv G)) Q2) = lens L2) by (rewrite map_map, <- NQ2; apply map_ext; intros; apply map_length).
      (* the shapes *)
      assert (SH : forall p, pat_ok (legs T) p -> exists S, shape_from T (zpat p) = Ok S /\ valid S /\ legs S = keep p (legs T) /\ qlegs S = keep p (qlegs T)).
      { intros p Hp. destruct (@shape_from_spec G R T p (proj1 V) Hp HS) as (S & ES & VS & _ & (S1 & S2 & _)). eauto. }
      assert (SK : forall X : t, forall a b qa qb, valid X -> legs X = [a; b] -> qlegs X = [qa; qb] -> 0 < sum_list a -> 0 < length a -> 0 < length b -> exists S, shape_from X [0; -1]%Z = Ok S /\ valid S /\ legs S = [b] /\ qlegs S = [qb]).
      { intros X a b qa qb VX e1 e2 Pa La Lb. destruct (@shape_from_spec G R X [Some 0; None] (proj1 VX)) as (S & ES & VS & _ & (S1 & S2 & _)).
        - rewrite e1. cbn. auto.
        - rewrite <- (legs_lens (proj1 VX)), e1. intros n [<-|[<-|[]]]; assumption.
        - exists S. rewrite S1, S2, e1, e2. auto. }
      assert (MP : forall L, In L [L1; L2] -> 0 < sum_list (merged_leg L) /\ 0 < length (merged_leg L)).
      { intros L HL. assert (HP : 0 < sum_list (merged_leg L)) by (apply NM; rewrite RG3; destruct HL as [<-|[<-|[]]]; [left|right; left]; reflexivity). split; [exact HP|]. destruct (merged_leg L); cbn in *; lia. }
      assert (P1 : pat_ok (legs T) (repeat None s ++ repeat (Some 0) (r - s))).
      { rewrite LT, <- len2, <- len1. apply pat_nones. pose proof (@pat_zeros L2 [] []) as P. rewrite !app_nil_r in P. apply P; [|exact I]. intros l Hl. apply N. rewrite LT. apply in_or_app. right. exact Hl. }
      assert (P2 : pat_ok (legs T) (repeat (Some 0) s ++ repeat None (r - s))).
      { rewrite LT, <- len2, <- len1. apply pat_zeros; [intros l Hl; apply N; rewrite LT; apply in_or_app; left; exact Hl|]. pose proof (proj2 (pat_nones L2 [] [])) as P. rewrite !app_nil_r in P. apply P. exact I. }
      destruct (SH _ P1) as (S1 & ES1 & VS1 & LS1 & QS1). destruct (SH _ P2) as (S2 & ES2 & VS2 & LS2 & QS2).
      rewrite zpat_app, zpat_nones, zpat_zeros in ES1, ES2.
      assert (K1 : forall A (l m : list A), length l = s -> length m = r - s -> keep (repeat None s ++ repeat (Some 0) (r - s)) (l ++ m) = l).
      { intros A l m <- <-. rewrite keep_nones. replace (keep _ m) with (@nil A); [apply app_nil_r|]. pose proof (keep_zeros m [] []) as KZ. rewrite !app_nil_r in KZ. symmetry. exact KZ. }
      assert (K2 : forall A (l m : list A), length l = s -> length m = r - s -> keep (repeat (Some 0) s ++ repeat None (r - s)) (l ++ m) = m).
      { intros A l m <- <-. rewrite keep_zeros. pose proof (keep_nones m [] []) as KZ. rewrite !app_nil_r in KZ. exact KZ. }
      rewrite LT, K1 in LS1 by assumption. rewrite QT, K1 in QS1 by assumption. rewrite LT, K2 in LS2 by assumption. rewrite QT, K2 in QS2 by assumption.
      destruct (SK rU _ _ _ _ VU u1 u2) as (S3 & ES3 & VS3 & LS3 & QS3); [apply MP; left; reflexivity|apply MP; left; reflexivity|exact KP|].
      destruct (SK rW _ _ _ _ VW w1 w2) as (S4 & ES4 & VS4 & LS4 & QS4); [apply MP; right; left; reflexivity|apply MP; right; left; reflexivity|exact KP|].
      destruct (@shape_list2 G R S1 S3 (proj1 VS1) (proj1 VS3)) as (O1 & EO1 & (VO1 & _ & LO1 & QO1 & _)).
      assert (VI : valid (inverse_cvals S2)) by (apply inverse_valid; exact VS2).
      assert (QI : qlegs (inverse_cvals S2) = map (map (qinv G)) Q2) by (unfold qlegs; cbn [b_sbd b_cv inverse_cvals]; rewrite unpack_map; fold (qlegs S2); rewrite QS2; reflexivity).
      destruct (@shape_list2 G R (inverse_cvals S2) S4 (proj1 VI) (proj1 VS4)) as (O2 & EO2 & (VO2 & _ & LO2 & QO2 & _)).
      rewrite LS1, LS3 in LO1. rewrite QS1, QS3 in QO1. change (legs (inverse_cvals S2)) with (legs S2) in LO2. rewrite LS2, LS4 in LO2. rewrite QI, QS4 in QO2.
      destruct (@unsplit rU O1 L1 Q1 kl kq VU u1 u2 NQ1 (proj1 VO1) LO1 QO1 HS1 KP) as (U & EU & VU' & RU & LU & QU & BU).
      destruct (@unsplit rW O2 L2 (map (map (qinv G)) Q2) kl kq VW w1 w2 NQ2' (proj1 VO2) LO2 QO2 HS2 KP) as (W & EW & VW' & RW & LW & QW & BW).
      exists U, d, W, (kl, kq). split.
      { unfold svd_split. rewrite EM. cbn [rbind]. rewrite E. cbn [rbind]. fold r. rewrite ES1. cbn [rbind]. rewrite ES3. cbn [rbind]. rewrite EO1. cbn [rbind]. rewrite EU. cbn [rbind]. rewrite ES2. cbn [rbind]. rewrite ES4. cbn [rbind]. rewrite EO2. cbn [rbind]. rewrite EW. reflexivity. }
      assert (SB : split_blocks T U d W L1 L2 kl).
      { constructor; auto. intros b1 o1 b2 o2 H1 H2 H3 H4. destruct (GE b1 b2 o1 o2 H1 H3 H2 H4) as (G1 & _). rewrite <- G1, HE.
        - apply sumf_ext. intros c Hc. apply in_seq in Hc. apply sumf_ext. intros z Hz. apply in_seq in Hz. rewrite BU, BW by (auto; lia). reflexivity.
        - rewrite merged_len. apply rowmajor_lt. exact H1.
        - rewrite merged_len. apply rowmajor_lt. exact H3.
        - rewrite merged_nth by exact H1. apply rowmajor_lt. exact H2.
        - rewrite merged_nth by exact H3. apply rowmajor_lt. exact H4. }
      destruct (dense_of VU') as (DU & FU). destruct (dense_of Vd) as (Dd & Fd). destruct (dense_of VW') as (DW & FW).
      assert (CA : forall A B (l : list A) (m : list B) a b, length l = length m -> combine (l ++ [a]) (m ++ [b]) = combine l m ++ [(a, b)]).
      { intros A B. induction l as [|x l IH]; intros [|y m] a b EL; try discriminate; [reflexivity|]. cbn. f_equal. apply IH. cbn in EL. lia. }
      split; [|split; [|split]].
      - split; [exact VU'|]. split; [exact Vd|]. split; [exact VW'|]. split; [exact LK|]. split; [exact NDK|]. rewrite HB1, HB2. rewrite merged_len in LB1, LB2. split; [rewrite sections_combine by congruence; exact LB1|]. split; [rewrite sections_combine by congruence; exact LB2|]. split; [rewrite combine_tots by congruence; rewrite <- merged_total; exact SB1|]. split; [rewrite combine_tots by congruence; rewrite <- merged_total; exact SB2|]. split; [|split; [|split]].
        + unfold blegs. rewrite LU, QU. apply CA. congruence.
        + unfold blegs. rewrite d1, d2. reflexivity.
        + unfold blegs. rewrite LW, QW. rewrite CA by (rewrite map_length; congruence). f_equal. clear. clearbody Q2. revert Q2. induction L2 as [|l L IH]; intros [|q0 Q]; cbn; try reflexivity. f_equal. apply IH.
        + split; [congruence|]. split; [exact d3|]. split; [congruence|]. exists DU, Dd, DW. split; [exact FU|]. split; [exact Fd|]. split; [exact FW|]. rewrite !combine_tots by congruence. exact (to_factors SB FD FU Fd FW).
      - intros HIS. destruct (HI (fun M H => HIS M (PS M H) (PT M H))) as (I1 & I2). clear DU Dd DW FU Fd FW. intros DU DW FU FW. rewrite HB1, HB2, !combine_tots by congruence.
        assert (ISO : forall L (rX X : t), (forall b o c z, in_range (lens L) b = true -> in_range (pick 0 L b) o = true -> c < length kl -> z < nth c kl 0 -> bentry X (b ++ [c]) (o ++ [z]) = bentry rX [rowmajor (lens L) b; c] [rowmajor (pick 0 L b) o; z]) ->
          iso_blocks (merged_leg L) kl rX -> iso_split L kl X).
        { intros L rX X HB HIB c c' z z' H1 H2 H3 H4. rewrite <- (HIB c c' z z' H1 H2 H3 H4). rewrite merged_len, <- sum_ranks. apply sumf_ext. intros b Hb. apply idxs_In in Hb. rewrite merged_nth by exact Hb. rewrite <- sum_ranks.
          apply sumf_ext. intros o Ho. apply idxs_In in Ho. rewrite !HB by assumption. reflexivity. }
        split.
        + apply (@to_orthonormal U L1 kl DU VU' LU FU). exact (ISO L1 rU U BU I1).
        + apply (@to_orthonormal W L2 kl DW VW' LW FW). exact (ISO L2 rW W BW I2).
      - intros HR Dd' Fd'. apply (real_of Vd d1 Fd'). intros c z Hc Hz. destruct (HRE c Hc) as (M & HM & EA & ES'). unfold bentry. rewrite EA. apply (HR M (PS M HM) (PT M HM)). rewrite ES'. cbn. rewrite (proj2 (Nat.ltb_lt _ _) Hz). reflexivity.
      - intros c Hc. cbn [fst] in Hc. destruct (HRE c Hc) as (M & HM & EA & _). exists M. split; [exact (PS M HM)|]. split; [exact (PT M HM)|]. split; [|apply assoc_nodup; [apply sorted_nodup, Vd|exact EA]].
        destruct (@piece_block G R dsvd M0 _ _ _ _ VM RG3 RG4 M HM) as (i & j & v & Hv & Hi & Hj & HE').
        assert (UN : forall L a, a < length (merged_leg L) -> exists b, in_range (lens L) b = true /\ a = rowmajor (lens L) b).
        { intros L a Ha. rewrite merged_len in Ha. exists (unrank (lens L) a). split; [apply unrank_in_range; exact Ha|symmetry; apply rowmajor_unrank; exact Ha]. }
        assert (RL : forall (L : list (list nat)) b, in_range (lens L) b = true -> length b = length L) by (intros L b B; apply in_range_length in B; unfold lens in B; rewrite map_length in B; exact B).
        assert (IB : forall b1 b2, in_range (lens L1) b1 = true -> in_range (lens L2) b2 = true -> in_range (b_sbd T) (b1 ++ b2) = true) by (intros b1 b2 B1 B2; rewrite SP, in_range_app by (apply RL in B1; unfold lens; rewrite map_length; exact B1); rewrite B1, B2; reflexivity).
        assert (EG : forall b1 b2, in_range (lens L1) b1 = true -> in_range (lens L2) b2 = true -> grouped [s; r - s] (b_sbd T) (b1 ++ b2) = [rowmajor (lens L1) b1; rowmajor (lens L2) b2]).
        { intros b1 b2 B1 B2. apply RL in B1, B2. unfold grouped. rewrite !U1 by (rewrite ?SP, ?app_length; unfold lens; rewrite ?map_length; lia). rewrite SP. destruct (CUT _ (lens L1) (lens L2)) as (-> & ->); [unfold lens; rewrite map_length; exact len1|]. destruct (CUT _ b1 b2) as (-> & ->); [congruence|]. reflexivity. }
        assert (BQ : forall b1 b2, in_range (lens L1) b1 = true -> in_range (lens L2) b2 = true -> block_quantity s T (b1 ++ b2) = nth (rowmajor (lens L2) b2) (merged_qleg G Q2) e).
        { intros b1 b2 B1 B2. unfold block_quantity. fold Q2. apply RL in B1. destruct (CUT _ b1 b2) as (_ & ->); [congruence|]. rewrite <- NQ2. symmetry. apply merged_qnth. rewrite NQ2. exact B2. }
        destruct (UN _ _ Hi) as (b1 & B1 & Ei). destruct (UN _ _ Hj) as (b2 & B2 & Ej). subst i j.
        destruct (proj1 (RG5 (b1 ++ b2) (IB b1 b2 B1 B2))) as (v0 & Hv0); [rewrite EG by assumption; exists v; exact Hv|]. exists (b1 ++ b2), v0. split; [exact Hv0|]. intros b' v' Hv' EQ.
        destruct (proj1 (proj2 V) _ _ Hv') as ((IB' & _) & SV'). assert (X : exists b1' b2', b' = b1' ++ b2' /\ in_range (lens L1) b1' = true /\ in_range (lens L2) b2' = true).
        { exists (firstn s b'), (skipn s b'). split; [symmetry; apply firstn_skipn|]. rewrite SP in IB'. pose proof (in_range_length _ _ IB') as LB'. unfold lens in LB'. rewrite app_length, !map_length in LB'. rewrite <- (firstn_skipn s b') in IB'. rewrite in_range_app in IB' by (rewrite firstn_length; unfold lens; rewrite map_length; lia). apply andb_true_iff in IB'. exact IB'. }
        destruct X as (b1' & b2' & -> & B1' & B2'). rewrite !BQ in EQ by assumption. pose proof (RL _ _ B1') as LB1'. pose proof (RL _ _ B2') as LB2'.
        destruct (proj2 (RG5 _ IB')) as (v2 & Hv2); [exists v'; exact Hv'|]. rewrite EG in Hv2 by assumption. rewrite SV', LT, pick_app by exact LB1'. intros o Ho.
        assert (LO : length o = length L1 + length L2) by (apply in_range_length in Ho; rewrite app_length, !pick_length in Ho by assumption; lia).
        rewrite <- (firstn_skipn (length L1) o) in Ho |- *. rewrite in_range_app in Ho by (rewrite firstn_length, pick_length by assumption; lia). apply andb_true_iff in Ho as (O1' & O2').
        destruct (GE b1' b2' _ _ B1' B2' O1' O2') as (G1 & _). destruct (HE' _ _ _ Hv2 EQ (rowmajor (pick 0 L1 b1') (firstn (length L1) o)) (rowmajor (pick 0 L2 b2') (skipn (length L1) o))) as (p & Hp & Ep).
        { rewrite merged_nth by exact B1'. apply rowmajor_lt. exact O1'. } { rewrite merged_nth by exact B2'. apply rowmajor_lt. exact O2'. }
        exists p. split; [exact Hp|]. rewrite Ep, G1. unfold bentry. rewrite (proj2 (assoc_nodup (b_blocks T) _ _ (sorted_nodup (proj2 (proj2 V)))) Hv'). reflexivity.
    Qed.
    Theorem svd_split_ok (T : t) D s : valid T -> nonempty T -> 0 < s < b_rank T -> b_blocks T <> [] -> dense_form T D -> (forall M, sector_matrix s T D M -> thin M (dsvd M)) ->
      exists U d W k, svd_split dsvd T s = Ok (U, d, W) /\ decomposition s T D U d W k /\ ((forall M, sector_matrix s T D M -> isometries M (dsvd M)) -> isometric s T U W k) /\
        ((forall M, sector_matrix s T D M -> real_entries (snd (fst (dsvd M)))) -> forall Dd, dense_form d Dd -> real_entries Dd) /\
        section_values s T D (fun M => snd (fst (dsvd M))) d (length (fst k)).
    Proof.
      intros V N Hs NB FD HO. destruct (@svd_split_pieces T D s V N Hs NB FD (fun M H _ => HO M H)) as (U & d & W & k & E & DC & HI & HR & HV). exists U, d, W, k. split; [exact E|]. split; [exact DC|].
      split; [intros H; apply HI; intros M HM _; exact (H M HM)|]. split; [intros H; apply HR; intros M HM _; exact (H M HM)|]. intros c Hc. destruct (HV c Hc) as (M & H1 & _ & H2 & H3). exists M. auto.
    Qed.
  End Main.
End D.

(** The compressed Heisenberg and Hubbard chains with conserved quantities. *)
From Verif Require Import Base Quantity QuantityProofs Ring Index SpecIndex Dense IndexProofs BTensor SpecBTensor LegsProofs
  SpecChain ChainInst SpecSector SpecSvd Models SpecModels ModelsProofs ModelsThms ModelsEx ModelsBlock SpecModelsBlock ModelsBlockProofs ModelsBlockThms
  Truncate SpecTruncate BTrunc SpecBTrunc Coalesce SpecCoalesce CoalesceThms ModelsCoal SpecModelsCoal ModelsCoalProofs.
From Coq Require Import Lia.
Set Implicit Arguments.

Section T.
  Context {G : abgroup} {R : ring} {W : weights}.
  Add Ring Rring : (ring_th R).
  Notation bt := (btensor G R).
  Variables (imax : nat) (gtb : R -> R -> bool) (lower : R -> R) (wt : R -> W) (dsvd : dense R -> dense R * dense R * dense R) (thr : W).
  Hypothesis HO : total_order gtb.
  Hypothesis exact_cut : forall l, wgtb (total wt l) thr = true <-> exists x, In x l /\ x <> rz.
  Hypothesis low : forall x, gtb x rz = true -> gtb x (lower x) = true.
  Hypothesis H_svd : forall M, (exists m n, dsh M = [m; n]) -> thin M (dsvd M) /\ descending gtb (entries (snd (fst (dsvd M)))) /\ forall x, In x (entries (snd (fst (dsvd M)))) -> gtb rz x = false.

  (** Compression of an automaton chain. *)
  Lemma coal_auto (P : bt) d K Loc A B V lq (Ts : list bt) m x y :
    auto_tensor d K Loc A B V -> length lq = S (S K) -> nth 0 lq (qe G) = nth (S K) lq (qe G) -> 0 < d -> bsz G (nth 0 (blegs P) ([], [])) = d -> @ro R <> rz -> (forall b, 1 <= b <= K -> exists p q, p < d /\ q < d /\ A b p q <> rz) ->
    block_mpo P Ts (trim_left (S K) V :: repeat V m ++ [trim_right V]) ([1], [x]) ([1], [y]) -> inner_bonds Ts (bdual G (repeat 1 (length lq), lq)) ->
    S (S K) <= imax -> length (fst (nth 0 (blegs P) ([], []))) <= imax -> (Z.of_nat (S (S K)) <= 2 ^ 63)%Z ->
    exists Ts' Ds', coalesce imax gtb lower wt dsvd Ts thr = Some (Ok Ts') /\ block_mpo P Ts' Ds' ([1], [x]) ([1], [y]) /\ length Ts' = S (S m) /\ small_bonds (S (S K)) Ts' /\
      ceq d (S (S m)) (mpo_op Ds') (mpo_op (trim_left (S K) V :: repeat V m ++ [trim_right V])).
  Proof.
    intros HV Hl Hends Hd Hbd H1 HA HB HI Hi Hp Hz. set (Ws := trim_left (S K) V :: repeat V m ++ [trim_right V]) in *.
    assert (LW : length Ws = S (S m)) by (unfold Ws; cbn [length]; rewrite app_length, repeat_length; cbn; lia).
    pose proof (block_mpo_length _ _ _ _ _ HB) as LT. rewrite LW in LT.
    assert (LK : length (fst (bdual G (repeat 1 (length lq), lq))) = S (S K)) by (cbn [bdual fst]; rewrite repeat_length; exact Hl).
    destruct (@block_mpo_split G R P imax _ Ts Ws _ _ HB HI) as (F1 & F2 & F3 & F4); [cbn; lia|cbn; lia|exact Hp|rewrite LK; exact Hi|].
    destruct (@coalesce_ok G R imax W gtb lower wt HO dsvd thr exact_cut low H_svd Ts Ws ([1], [x]) ([1], [y]) F1 F2) as (Ts' & Ds' & EC & S1 & S2 & S3 & S4 & S5 & S6).
    { intros ->. discriminate. }
    { exact (auto_reached HV Hl Hends Hd H1 HA HI LT). }
    { intros i T ET HT. unfold right_leg. rewrite (HI i T ET HT). unfold bsz. cbn [bdual fst]. rewrite units_sum, Hl. exact Hz. }
    assert (LT' : length Ts' = S (S m)) by (apply (f_equal (@length _)) in S4; rewrite !map_length in S4; lia).
    assert (HB' : block_mpo P Ts' Ds' ([1], [x]) ([1], [y])) by (apply (@block_mpo_join G R P imax Ts' Ds' _ _ S1 S2); [rewrite S4, F3, LT, LT'; reflexivity|rewrite S5, F4, LT, LT'; reflexivity]).
    exists Ts', Ds'. split; [exact EC|]. split; [exact HB'|]. split; [exact LT'|]. split.
    - intros i T' ET' HT'. destruct (nth_error Ts i) as [T|] eqn:ET; [|apply nth_error_None in ET; lia]. destruct (S6 i T T' ET ET') as (N1 & N2 & N3); [lia|]. unfold right_leg in N2 at 2, N3 at 2.
      rewrite (HI i T ET) in N2, N3 by lia. rewrite LK in N2. unfold bsz in N3 at 2. cbn [bdual fst] in N3. rewrite units_sum, Hl in N3. auto.
    - destruct S3 as (E1 & E3 & S3). pose proof (block_mpo_length _ _ _ _ _ HB') as LD. rewrite LT' in LD.
      intros ps qs Hps Hqs. unfold mpo_op. pose proof (range_len _ _ _ Hps) as L1. pose proof (range_len _ _ _ Hqs) as L2. rewrite <- !op_amp_models by congruence.
      apply S3; [| |cbn; lia|cbn; lia]; rewrite (@block_mpo_sizes G R P Ts Ws _ _ HB) by tauto; rewrite Hbd, LW; assumption.
  Qed.

  Variable signif : dense R -> bool.
  Variable near : R -> R -> bool.
  Hypothesis near_refl : forall x, near x x = true.

  Lemma phys_bsz d (P : bt) : phys_dim d P -> bsz G (nth 0 (blegs P) ([], [])) = d.
  Proof. intros HP. apply (phys_legs1 HP). Qed.
  Lemma one_nonzero (x : R) : x <> rz -> @ro R <> rz.
  Proof. intros H E. apply H. rewrite <- (rmul_1_l _ x), E. ring. Qed.

  Theorem heis_full quarter (J : R) n (P : bt) p0 p1 : (forall x : R, rmul (radd (radd ro ro) (radd ro ro)) (quarter x) = x) -> J <> rz ->
    2 <= n -> phys_dim 2 P -> phys_carries P 0 p0 -> phys_carries P 1 p1 -> visible signif ro -> visible signif (ropp ro) ->
    (forall x, In x [rmul (radd ro ro) (quarter (ropp J)); quarter (ropp J); ropp (quarter (ropp J))] -> x = rz \/ visible signif x) ->
    p1 = qop G p0 p0 -> p0 = qop G p1 p1 -> 5 <= imax -> length (fst (nth 0 (blegs P) ([], []))) <= imax ->
    exists Ts Ds, conserving_Heisenberg signif near imax gtb lower wt dsvd thr quarter J n P = Some (Ok Ts) /\ block_mpo P Ts Ds ([1], [qe G]) ([1], [qe G]) /\ length Ts = n /\ small_bonds 5 Ts /\
      ceq 2 n (cscale (radd (radd ro ro) (radd ro ro)) (mpo_op Ds)) (cscale (ropp J) (csum (fun i => sigma_sigma R n i) (seq 0 (n - 1)))).
  Proof.
    intros HQ HJ Hn HP H0 H1 V1 V2 VJ Q1 Q2 Hi Hp.
    destruct (@heis_ok G R signif near near_refl quarter J n P p0 p1 Hn HP H0 H1 V1 V2 VJ Q1 Q2) as (Ts & Ws & EB & EH & HB & HI).
    destruct (@Heisenberg_spec R quarter J n HQ) as (Ws' & EH' & LW & _ & HC); [lia|]. rewrite EH in EH'. injection EH' as <-.
    destruct (Heisenberg_local_auto (quarter (ropp J))) as (V & EV & AV). destruct n as [|[|m]]; try lia.
    assert (EW : Ws = trim_left 4 V :: repeat V m ++ [trim_right V]) by (unfold Heisenberg, Heisenberg_impl in EH; rewrite EV in EH; cbn [rbind] in EH; rewrite chain_of_two in EH; congruence).
    set (J' := quarter (ropp J)) in *. assert (NJ2 : rmul (radd ro ro) J' <> rz).
    { intros E. apply HJ. transitivity (ropp (rmul (radd (radd ro ro) (radd ro ro)) J')); [unfold J'; rewrite HQ; ring|]. transitivity (ropp (radd (rmul (radd ro ro) J') (rmul (radd ro ro) J'))); [ring|]. rewrite E. ring. }
    assert (NJ : J' <> rz) by (intros E; apply NJ2; rewrite E; ring).
    subst Ws. destruct (@coal_auto P 2 3 (fun _ _ => rz) (hA J') hB V [qe G; p0; p1; qe G; qe G] Ts m (qe G) (qe G) AV eq_refl eq_refl) as (Ts' & Ds' & EC & HB' & LT & SB & HD); auto; try lia.
    - apply (phys_bsz HP).
    - apply (one_nonzero HJ).
    - intros b Hb. destruct b as [|[|[|[|b]]]]; try lia; [exists 1, 0|exists 0, 1|exists 0, 0]; (split; [lia|]); (split; [lia|]); intros E;
        [apply NJ2|apply NJ2|apply NJ]; rewrite <- E; cbv -[radd rmul ropp rz ro rconj rT]; ring.
    - exists Ts', Ds'. split; [unfold conserving_Heisenberg; rewrite EB; exact EC|]. split; [exact HB'|]. split; [exact LT|]. split; [exact SB|].
      eapply ceq_trans; [apply ceq_cscale; exact HD|exact HC].
  Qed.

  Theorem hub_full (U mu : R) n (P : bt) p0 p1 p2 p3 c_up c_dn F id : fermions (R := R) = (c_up, c_dn, F, id) -> @ro R <> rz ->
    2 <= n -> phys_dim 4 P -> phys_carries P 0 p0 -> phys_carries P 1 p1 -> phys_carries P 2 p2 -> phys_carries P 3 p3 -> visible signif ro -> visible signif (ropp ro) ->
    (forall x, In x [ropp mu; rsub U (radd mu mu)] -> x = rz \/ visible signif x) ->
    qop G p0 p0 = qe G -> qop G p0 p3 = qop G p1 p2 -> 6 <= imax -> length (fst (nth 0 (blegs P) ([], []))) <= imax ->
    let C s i := with_string n i (of_dense F) (of_dense (if s : bool then c_up else c_dn)) in
    let N s i := cmul 4 n (cadj (C s i)) (C s i) in
    let hop s i j := cmul 4 n (cadj (C s i)) (C s j) in
    exists Ts Ds, conserving_Hubbard signif near imax gtb lower wt dsvd thr U mu n P = Some (Ok Ts) /\ block_mpo P Ts Ds ([1], [p0]) ([1], [p0]) /\ length Ts = n /\ small_bonds 6 Ts /\
      ceq 4 n (mpo_op Ds)
        (cadd (csum (fun i => cadd (cscale U (cmul 4 n (N true i) (N false i))) (cscale (ropp mu) (cadd (N true i) (N false i)))) (seq 0 n))
              (csum (fun i => csum (fun s => cadd (hop s i (S i)) (hop s (S i) i)) [true; false]) (seq 0 (n - 1)))).
  Proof.
    intros EF NZ Hn HP H0 H1 H2 H3 V1 V2 VJ Q1 Q2 Hi Hp C N hop.
    destruct (@hub_ok G R signif near near_refl U mu n P p0 p1 p2 p3 Hn HP H0 H1 H2 H3 V1 V2 VJ Q1 Q2) as (Ts & Ws & EB & EH & HB & HI).
    destruct (@Hubbard_spec R U mu c_up c_dn F id n EF) as (Ws' & EH' & LW & _ & HC); [lia|]. fold C in HC. fold N in HC. fold hop in HC. rewrite EH in EH'. injection EH' as <-.
    destruct (Hubbard_local_auto U mu) as (V & EV & AV). destruct n as [|[|m]]; try lia.
    assert (EW : Ws = trim_left 5 V :: repeat V m ++ [trim_right V]) by (unfold Hubbard in EH; rewrite EV in EH; cbn [rbind] in EH; rewrite chain_of_two in EH; congruence).
    subst Ws. destruct (@coal_auto P 4 4 (uLoc U mu) uA uB V [p0; p1; p2; qinv G p1; qinv G p2; p0] Ts m p0 p0 AV eq_refl eq_refl) as (Ts' & Ds' & EC & HB' & LT & SB & HD); auto; try lia.
    - apply (phys_bsz HP).
    - intros b Hb. destruct b as [|[|[|[|[|b]]]]]; try lia; [exists 1, 0|exists 2, 0|exists 0, 1|exists 0, 2]; (split; [lia|]); (split; [lia|]); intros E;
        apply NZ; rewrite <- E; cbv -[radd rmul ropp rz ro rconj rT]; rewrite ?rconj_opp, ?rconj_0, ?rconj_1; ring.
    - exists Ts', Ds'. split; [unfold conserving_Hubbard; rewrite EB; exact EC|]. split; [exact HB'|]. split; [exact LT|]. split; [exact SB|].
      eapply ceq_trans; [exact HD|exact HC].
  Qed.
End T.

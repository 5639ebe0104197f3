(** The statements of C79 and values that meet them. *)
From Verif Require Import Base Quantity QuantityProofs FlatMap SpecFlatMap FlatMapProofs FlatMapThms Ring Index SpecIndex IndexProofs Dense BTensor SpecBTensor LegsProofs BTensorProofs BTensorThms
  BTensorArith SpecArith ArithProofs ArithThms Tensordot SpecTensordot Bcast SpecBcast BcastMain View Chain SpecChain ChainProofs ChainInst
  BcastProofs BcastThms ModelsBlockProofs Num Eig2 SpecEig2 Eig2Proofs Lanczos SpecLanczos LanczosProofs LanczosEx BLanczos SpecBLanczos BLanczosProofs BLanczosThms BTensorEx BLanczosEx BLanczosMiss.
Set Implicit Arguments.

Section P.
  Variables (G : abgroup) (N : numeric) (imax : nat).
  Notation bt := (btensor G N).
  Notation d := (dense N).
  Notation den := (@stored G N imax).
  Notation tl := (@blegs G N).
  Section Env.
    Variables (L H E s P : bt) (DL DH DE Ds : d) (eps : N).
    Hypothesis (HL : den L DL) (HH : den H DH) (HE : den E DE) (Hs : den s Ds) (F : bfits L H E s) (CV : conserving L H E).
    Notation M := (heff DL DH DE).
    Notation sh := (dsh Ds).
    Hypothesis EP : hamil2site_times_state (tensordot imax) s H L E = Ok P.
    Notation ans := (fun r r' => den (fst r) (fst r') /\ den (snd r) (snd r') /\ tl (fst r) = [] /\ tl (snd r) = tl s /\ b_rule (snd r) = b_rule s).
    Lemma follows : reached P s -> same_outcome ans (b_update imax eps s H L E) (t_update eps Ds DH DL DE).
    Proof.
      intros RE. destruct F as (x & p & p' & x' & o & o' & TL & Ts & TH & TE).
      exact (@sim_update G N imax L H E DL DH DE x p p' x' o o' HL HH HE TL TH TE CV eps s P Ds Hs Ts EP RE).
    Qed.
    Lemma shapes : exists x p p' x', sh = [x; p; p'; x'] /\ fits DL DH DE x p p' x'.
    Proof.
      destruct F as (x & p & p' & x' & o & o' & TL & Ts & TH & TE). exists (@bsz G x), (@bsz G p), (@bsz G p'), (@bsz G x'). split.
      - exact (@shape_ts G N imax x p p' x' s Ds Hs Ts).
      - exact (@dfits G N imax L H E DL DH DE x p p' x' o o' HL HH HE TL TH TE).
    Qed.
    Lemma ground : reached P s -> hermitian_kernel sh M -> sprod sh (dv Ds) (dv Ds) = ro -> le N rz eps -> eps <> rz ->
      le N (rmul eps eps) (sprod sh (residual sh M (dv Ds)) (residual sh M (dv Ds))) ->
      exists Et U DEt DU, b_update imax eps s H L E = Ok (Et, U) /\ den Et DEt /\ den U DU /\ tl Et = [] /\ tl U = tl s /\ b_rule U = b_rule s /\
        krylov_ground sh M (dv Ds) (dv DEt []) (dv DU) /\ le N (dv DEt []) (energy sh M (dv Ds)).
    Proof.
      intros RE HM NV P0 Pz P2. pose proof (follows RE) as SO. destruct shapes as (x & p & p' & x' & ES & FT). rewrite ES in *.
      destruct (@update_ok N DL DH DE x p p' x' FT eps Ds ES HM NV P0 Pz P2) as (Et & U & EU & _ & _ & K1 & K2). rewrite EU in SO. unfold same_outcome in SO.
      destruct (b_update imax eps s H L E) as [[Et' U']|e|]; [|contradiction|contradiction]. destruct SO as (A1 & A2 & A3 & A4 & A5).
      exists Et', U', Et, U. repeat (split; [assumption || reflexivity|]). assumption.
    Qed.
    Lemma eigen lam : reached P s -> hermitian_kernel sh M -> sprod sh (dv Ds) (dv Ds) = ro -> le N rz eps -> eps <> rz ->
      (forall i, in_range sh i = true -> apply sh M (dv Ds) i = rmul lam (dv Ds i)) ->
      exists Et U DEt DU, b_update imax eps s H L E = Ok (Et, U) /\ den Et DEt /\ den U DU /\ tl Et = [] /\ tl U = tl s /\ b_rule U = b_rule s /\
        if n_leb N rz lam then dv DEt [] = rz /\ forall i, in_range sh i = true -> dv DU i = rz
        else dv DEt [] = lam /\ forall i, in_range sh i = true -> dv DU i = dv Ds i.
    Proof.
      intros RE HM NV P0 Pz P2. pose proof (follows RE) as SO. destruct shapes as (x & p & p' & x' & ES & FT). rewrite ES in *.
      destruct (@update_eigen N DL DH DE x p p' x' FT eps Ds ES HM NV P0 Pz lam P2) as (Et & U & EU & _ & _ & K1). rewrite EU in SO. unfold same_outcome in SO.
      destruct (b_update imax eps s H L E) as [[Et' U']|e|]; [|contradiction|contradiction]. destruct SO as (A1 & A2 & A3 & A4 & A5).
      exists Et', U', Et, U. repeat (split; [assumption || reflexivity|]). exact K1.
    Qed.
    Lemma hopping Q : hamil2site_times_state (tensordot imax) P H L E = Ok Q -> (forall k, ~ (has P k /\ has s k)) -> (forall k, ~ (has Q k /\ has P k)) ->
      le N rz eps -> eps <> rz -> le N (rmul eps eps) (sprod sh (apply sh M (dv Ds)) (apply sh M (dv Ds))) ->
      exists Et U DEt DU, b_update imax eps s H L E = Ok (Et, U) /\ den Et DEt /\ den U DU /\
        dv DEt [] = ropp (n_sqrt N (sprod sh (apply sh M (dv Ds)) (apply sh M (dv Ds)))) /\
        (forall i, in_range sh i = true -> dv DU i = ropp (ndiv N (apply sh M (dv Ds) i) (n_sqrt N (sprod sh (apply sh M (dv Ds)) (apply sh M (dv Ds)))))) /\ energy sh M (dv DU) = rz.
    Proof.
      intros EQ NP NQ P0 Pz P2. destruct F as (x & p & p' & x' & o & o' & TL & Ts & TH & TE). pose proof (@shape_ts G N imax x p p' x' s Ds Hs Ts) as ES. rewrite ES in *.
      exact (@miss G N imax L H E DL DH DE x p p' x' o o' HL HH HE TL TH TE CV eps s P Q Ds Hs Ts EP EQ NP NQ P0 Pz P2).
    Qed.
    Lemma nothing : (forall k, ~ has P k) -> b_update imax eps s H L E = Throw TorchError.
    Proof.
      intros NO. destruct F as (x & p & p' & x' & o & o' & TL & Ts & TH & TE).
      eapply (@miss_all G N imax L H E DL DH DE x p p' x' o o'); eassumption.
    Qed.
  End Env.
End P.

Section Ex.
  Variable N : numeric.
  Add Ring Rr : (ring_th N).
  Notation bt := (btensor z_group N).
  Notation d := (dense N).
  Notation den := (@stored z_group N 100).
  Notation tl := (@blegs z_group N).
  Notation xe := (@xe N). Notation xs := (@xs N). Notation ds := (@ds N). Notation xh := (@xh N). Notation dh := (@dh N).
  Notation de := (ex_env N).
  Notation sh := [1; 2; 2; 1].
  Ltac red_ex := cbn; cbv beta iota delta [Nat.eqb andb orb negb].
  Ltac keys Hb := apply idxs_In in Hb; cbn in Hb; repeat (destruct Hb as [<-|Hb]; [|]); [..|contradiction].
  (** Operators of two spins given by their blocks: the exchange alone, and one that acts on two spins up alone. *)
  Definition op2 (l : list (list nat * d)) : bt := @mkB z_group N (q 0) 6 [1; 2; 2; 1; 2; 2] [1; 1; 1; 1; 1; 1; 1; 1; 1; 1] [q 0; q 1; q (-1); q 1; q (-1); q 0; q (-1); q 1; q (-1); q 1] l.
  Definition xk : bt := op2 [([0; 0; 1; 0; 1; 0], u N 6 ro); ([0; 1; 0; 0; 0; 1], u N 6 ro)].
  Definition xn : bt := op2 [([0; 0; 0; 0; 0; 0], u N 6 (ropp ro))].
  Definition dk : d := mkD [1; 2; 2; 1; 2; 2] (fun i => if (nth 1 i 0 =? nth 2 i 0) || (nth 4 i 0 =? nth 5 i 0) || (nth 1 i 0 =? nth 4 i 0) then rz else ro).
  Definition dn : d := mkD [1; 2; 2; 1; 2; 2] (fun i => if (nth 1 i 0 =? 0) && (nth 2 i 0 =? 0) && (nth 4 i 0 =? 0) && (nth 5 i 0 =? 0) then ropp ro else rz).
  Lemma den_xk : den xk dk.
  Proof.
    split; [|split].
    - apply valid_of; [repeat split| |repeat constructor]. intros k t [[= <- <-]|[[= <- <-]|[]]]; repeat split.
    - split; [reflexivity|]. intros b o Hb Ho. change (b_sbd xk) with [1; 2; 2; 1; 2; 2] in Hb. keys Hb; change (in_range [1; 1; 1; 1; 1; 1] o = true) in Ho; keys Ho; reflexivity.
    - intros s H. cbn in H. intuition lia.
  Qed.
  Lemma den_xn : den xn dn.
  Proof.
    split; [|split].
    - apply valid_of; [repeat split| |repeat constructor]. intros k t [[= <- <-]|[]]; repeat split.
    - split; [reflexivity|]. intros b o Hb Ho. change (b_sbd xn) with [1; 2; 2; 1; 2; 2] in Hb. keys Hb; change (in_range [1; 1; 1; 1; 1; 1] o = true) in Ho; keys Ho; reflexivity.
    - intros s H. cbn in H. intuition lia.
  Qed.
  Lemma op2_fits l a : bfits xe (op2 l) xe (xs a).
  Proof. exact (xs_fits N a). Qed.
  Lemma op2_conserving l : conserving xe (op2 l) xe.
  Proof. exact (x_conserving N). Qed.
  Lemma k_val (D : d) i j : heff de D de i j = dv D [0; nth 1 i 0; nth 2 i 0; 0; nth 1 j 0; nth 2 j 0].
  Proof. unfold heff. cbn [ex_env dsh dv nth seq]. rewrite !sumf_cons, !sumf_nil. cbn [dv nth]. ring. Qed.
  Lemma k_hermitian : hermitian_kernel sh (heff de dk de).
  Proof. intros i j Hi Hj. rewrite !k_val. keys Hi; keys Hj; red_ex; rewrite ?conj0, ?conj1; reflexivity. Qed.
  Lemma n_hermitian : hermitian_kernel sh (heff de dn de).
  Proof. intros i j Hi Hj. rewrite !k_val. keys Hi; keys Hj; red_ex; rewrite ?conj0, ?conj_opp, ?conj1; reflexivity. Qed.
  Ltac ev := cbn [idxs seq flat_map map app]; rewrite !sumf_cons, !sumf_nil, ?k_val; red_ex.
  Lemma k_apply i : in_range sh i = true -> apply sh (heff de dk de) (dv (ds 0)) i = dv (ds 1) i.
  Proof. intros Hi. unfold apply. keys Hi; ev; ring. Qed.
  Lemma n_apply i : in_range sh i = true -> apply sh (heff de dn de) (dv (ds 0)) i = rz.
  Proof. intros Hi. unfold apply. keys Hi; ev; ring. Qed.
  Lemma k_norm : sprod sh (apply sh (heff de dk de) (dv (ds 0))) (apply sh (heff de dk de) (dv (ds 0))) = ro.
  Proof. rewrite <- (s_norm N (a := 1)) by lia. apply sprod_ext; exact k_apply. Qed.
  Lemma h_residual i : in_range sh i = true -> residual sh (heff de dh de) (dv (ds 0)) i = rmul (two N) (dv (ds 1) i).
  Proof.
    intros Hi. unfold residual. rewrite s_apply by (lia || exact Hi). change (energy sh (heff de dh de) (dv (ds 0))) with (energy sh (heff de dh de) (dv (BLanczosEx.ds N 0))).
    rewrite s_energy by lia. unfold rsub. keys Hi; red_ex; ring.
  Qed.
  Lemma h_residual_norm : sprod sh (residual sh (heff de dh de) (dv (ds 0))) (residual sh (heff de dh de) (dv (ds 0))) = rmul (two N) (two N).
  Proof.
    rewrite (@sprod_ext N _ _ _ _ h_residual h_residual). transitivity (rmul (rmul (two N) (two N)) (sprod sh (dv (ds 1)) (dv (ds 1)))); [|rewrite (s_norm N) by lia; ring].
    unfold sprod. rewrite <- sumf_mul_l. apply sumf_ext. intros i _. rewrite rconj_mul, (two_real N). ring.
  Qed.
  Lemma has_of (T : bt) k : has T k -> In k (map fst (b_blocks T)).
  Proof. unfold has. destruct (assoc leqb k (b_blocks T)) as [t|] eqn:A; [|congruence]. intros _. apply (assoc_In key_order_idx) in A. apply (in_map fst) in A. exact A. Qed.
  Lemma keys_of (r : result bt) P l : rmap (fun P : bt => map fst (b_blocks P)) r = Ok l -> r = Ok P -> map fst (b_blocks P) = l.
  Proof. intros H ->. cbn in H. congruence. Qed.
  Lemma xk_keys : rmap (fun P : bt => map fst (b_blocks P)) (hamil2site_times_state (tensordot 100) (xs 0) xk xe xe) = Ok [[0; 1; 0; 0]].
  Proof. vm_compute. reflexivity. Qed.
  Lemma xk_keys2 : rmap (fun P : bt => map fst (b_blocks P)) (rbind (hamil2site_times_state (tensordot 100) (xs 0) xk xe xe) (fun P => hamil2site_times_state (tensordot 100) P xk xe xe)) = Ok [[0; 0; 1; 0]].
  Proof. vm_compute. reflexivity. Qed.
  Lemma xn_keys : rmap (fun P : bt => map fst (b_blocks P)) (hamil2site_times_state (tensordot 100) (xs 0) xn xe xe) = Ok [].
  Proof. vm_compute. reflexivity. Qed.
  Lemma is_ok A B (f : A -> B) (r : result A) b : rmap f r = Ok b -> exists a, r = Ok a.
  Proof. destruct r; cbn; try discriminate. eauto. Qed.
  Lemma sqrt_1 : n_sqrt N ro = ro.
  Proof.
    assert (Q1 : le N rz ro) by (generalize (n_nn_sq N ro); rewrite rmul_1_r, conj1; auto).
    apply root_unique; [apply n_sqrt_nn; exact Q1|exact Q1|]. rewrite n_sqrt_sq by exact Q1. ring.
  Qed.
  Lemma xk_update (eps : N) : le N rz eps -> eps <> rz -> le N (rmul eps eps) ro ->
    exists Et U DEt DU, b_update 100 eps (xs 0) xk xe xe = Ok (Et, U) /\ den Et DEt /\ den U DU /\ dv DEt [] = ropp ro /\ sprod sh (dv DU) (dv DU) = ro /\ energy sh (heff de dk de) (dv DU) = rz.
  Proof.
    intros P0 Pz P2. destruct (is_ok _ _ xk_keys) as [P EP]. pose proof xk_keys2 as K2. rewrite EP in K2. cbn [rbind] in K2. destruct (is_ok _ _ K2) as [Q EQ].
    pose proof (keys_of xk_keys EP) as KP. pose proof (keys_of K2 EQ) as KQ.
    destruct (@hopping z_group N 100 xe xk xe (xs 0) P de dk de (ds 0) eps (den_xe N) den_xk (den_xe N) (den_xs N (a := 0) ltac:(lia)) (op2_fits _ 0) (op2_conserving _) EP Q EQ) as (Et & U & DEt & DU & E1 & E2 & E3 & E4 & E5 & E6).
    - intros k [A B]. apply has_of in A, B. rewrite KP in A. cbn in A, B. destruct A as [<-|[]]. destruct B as [B|[]]. discriminate.
    - intros k [A B]. apply has_of in A, B. rewrite KQ in A. rewrite KP in B. cbn in A, B. destruct A as [<-|[]]. destruct B as [B|[]]. discriminate.
    - exact P0.
    - exact Pz.
    - cbn [BLanczosEx.ds dsh]. rewrite k_norm. exact P2.
    - cbn [BLanczosEx.ds dsh] in E4, E5, E6. rewrite k_norm, sqrt_1 in E4, E5.
      exists Et, U, DEt, DU. repeat (split; [assumption|]). split; [|exact E6].
      assert (V : forall i, in_range sh i = true -> dv DU i = ropp (dv (ds 1) i)).
      { intros i Hi. rewrite E5 by exact Hi. f_equal. etransitivity; [|exact (@k_apply i Hi)]. unfold ndiv.
        assert (I1 : n_inv N ro = ro) by (generalize (n_inv_ok N (n_one N)); intros Z; transitivity (rmul ro (n_inv N ro) : N); [ring|exact Z]). rewrite I1. ring. }
      rewrite (@sprod_ext N _ _ _ _ V V). rewrite <- (s_norm N (a := 1)) by lia. unfold sprod. apply sumf_ext. intros i _. rewrite conj_opp. ring.
  Qed.
  Lemma xn_update (eps : N) : b_update 100 eps (xs 0) xn xe xe = Throw TorchError.
  Proof.
    destruct (is_ok _ _ xn_keys) as [P EP]. pose proof (keys_of xn_keys EP) as KP.
    apply (@nothing z_group N 100 xe xn xe (xs 0) P de dn de (ds 0) eps (den_xe N) den_xn (den_xe N) (den_xs N (a := 0) ltac:(lia)) (op2_fits _ 0) (op2_conserving _) EP).
    intros k A. apply has_of in A. rewrite KP in A. destruct A.
  Qed.
End Ex.

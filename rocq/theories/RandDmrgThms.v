(** Random chains of dense tensors, and the runs of DMRG that start from them. *)
From Verif Require Import Base Ring Index SpecIndex Dense IndexProofs BTensor BTensorProofs Bcast Tensordot Chain SpecChain ChainProofs ChainInst SpecMove SpecSvd MoveOc Truncate Num Lanczos SpecLanczos SpecSiteUpdate Dmrg DmrgProofs DmrgRun SpecDmrgRun DmrgRunMain
  RandDmrg SpecRandDmrg.
Set Implicit Arguments.

Section R.
  Context {N : numeric}.
  Notation t := (dense N).
  Notation idk := (fun k : nat => k).
  Variable draw : nat -> list nat -> N.

  Lemma nth_error_seq n i : i < n -> nth_error (seq 0 n) i = Some i.
  Proof. intros H. rewrite (nth_error_nth' (seq 0 n) 0) by (rewrite seq_length; exact H). rewrite seq_nth by exact H. reflexivity. Qed.
  Theorem random_impl_ok len bd ps (phys_dim : nat -> result nat) : 1 <= len -> 1 <= bd -> length ps = len -> (forall i, i < len -> phys_dim i = Ok (nth i ps 0)) ->
    exists sites, random_MPS_impl draw len bd phys_dim = Ok sites /\ length sites = len /\
      forall i, i < len -> exists A, nth_error sites i = Some A /\ dsh A = random_shape len bd ps i /\ forall j, dv A j = draw i j.
  Proof.
    intros HL Hb Lp HP. unfold random_MPS_impl, rand_sites.
    rewrite (@rmapM_pure _ _ _ (fun i => mkD [bd; nth i ps 0; bd] (draw i) : t)) by (intros i Hi; apply in_seq in Hi; rewrite HP by lia; reflexivity). cbn [rbind].
    set (out := map (fun i => mkD [bd; nth i ps 0; bd] (draw i) : t) (seq 0 len)). assert (LO : length out = len) by (unfold out; rewrite map_length, seq_length; reflexivity).
    assert (NO : forall i, i < len -> nth_error out i = Some (mkD [bd; nth i ps 0; bd] (draw i))) by (intros i Hi; unfold out; apply (map_nth_error (fun i => mkD [bd; nth i ps 0; bd] (draw i) : t)), nth_error_seq, Hi).
    unfold rnth. rewrite NO by lia. cbn [rbind d_first dsh dv]. rewrite nth_error_upd by lia. rewrite Nat.min_r by exact Hb. destruct (Nat.eqb_spec (len - 1) 0) as [Q|Q].
    - assert (L1 : len = 1) by lia. rewrite L1 in *. cbn [rbind]. unfold d_last. cbn [dsh rev app dv]. cbn [rbind]. eexists. split; [reflexivity|]. split; [rewrite !upd_length; [exact LO|rewrite LO; lia|rewrite upd_length; lia]|]. intros i Hi. assert (i = 0) by lia. subst i.
      rewrite nth_error_upd by (rewrite upd_length; lia). cbn [Nat.eqb]. eexists. split; [reflexivity|]. split; [|reflexivity]. unfold random_shape, bond_at. cbn. rewrite Nat.min_r by exact Hb. reflexivity.
    - rewrite NO by lia. cbn [rbind]. unfold d_last. cbn [dsh rev app dv]. cbn [rbind]. eexists. split; [reflexivity|]. split; [rewrite !upd_length; [exact LO|rewrite LO; lia|rewrite upd_length; lia]|]. intros i Hi.
      rewrite nth_error_upd by (rewrite upd_length; lia). rewrite Nat.min_r by exact Hb. unfold random_shape, bond_at.
      destruct (Nat.eqb_spec i (len - 1)) as [-> |D].
      { eexists. split; [reflexivity|]. cbn [dsh dv]. split; [|reflexivity]. destruct (Nat.eqb_spec (len - 1) 0), (Nat.eqb_spec (len - 1) len), (Nat.eqb_spec (len - 1 + 1) 0), (Nat.eqb_spec (len - 1 + 1) len); try lia. reflexivity. }
      rewrite nth_error_upd by lia. destruct (Nat.eqb_spec i 0) as [-> |D2].
      { eexists. split; [reflexivity|]. cbn [dsh dv]. split; [|reflexivity]. cbn [orb]. destruct (Nat.eqb_spec (0 + 1) 0), (Nat.eqb_spec (0 + 1) len); try lia. reflexivity. }
      rewrite NO by lia. eexists. split; [reflexivity|]. cbn [dsh dv]. split; [|reflexivity]. cbn [orb]. destruct (Nat.eqb_spec i len), (Nat.eqb_spec (i + 1) 0), (Nat.eqb_spec (i + 1) len); try lia. reflexivity.
  Qed.
  Lemma shapes_fit (B P : nat -> nat) : forall (sites : list t) off, (forall i, i < length sites -> exists A, nth_error sites i = Some A /\ dsh A = [B (off + i); P (off + i); B (off + i + 1)]) ->
    mps_fit (@dsh N) idk sites (B off) (B (off + length sites)) /\ map (size 1) sites = map P (seq off (length sites)).
  Proof.
    induction sites as [|A sites IH]; intros off H; cbn [length map seq mps_fit].
    - rewrite Nat.add_0_r. split; reflexivity.
    - destruct (H 0) as (A' & NA & SA); [cbn; lia|]. cbn in NA. injection NA as <-. rewrite Nat.add_0_r in SA. destruct (IH (S off)) as (F & M).
      { intros i Hi. destruct (H (S i)) as (C & NC & SC); [cbn; lia|]. exists C. split; [exact NC|]. replace (S off + i) with (off + S i) by lia. exact SC. }
      replace (S off + length sites) with (off + S (length sites)) in F by lia. split.
      + exists (P off), (B (S off)). split; [rewrite SA; replace (off + 1) with (S off) by lia; reflexivity|exact F].
      + f_equal; [unfold size; rewrite SA; reflexivity|exact M].
  Qed.
  Lemma ham_mpo_fit : forall (hs : list t) ps (sites : list t) o o', ham_fit hs ps o o' -> map (size 1) sites = ps -> (forall A, In A sites -> length (dsh A) = 3) -> mpo_fit (@dsh N) idk hs sites sites o o'.
  Proof.
    induction hs as [|h hs IH]; intros [|p ps] [|A sites] o o' F E H3; try discriminate; try destruct F; cbn [mpo_fit]; auto.
    destruct H as (S & F). cbn in E. injection E as E1 E2. exists x, p, p. split; [exact S|]. assert (N1 : nth_error (dsh A) 1 = Some p).
    { unfold size in E1. rewrite <- E1. apply nth_error_nth'. rewrite (H3 A) by (left; reflexivity). lia. }
    split; [exact N1|]. split; [exact N1|]. apply IH with ps; auto. intros A' HA. apply H3. right. exact HA.
  Qed.
  Lemma ham_len : forall (hs : list t) ps o o', ham_fit hs ps o o' -> length ps = length hs.
  Proof. induction hs as [|h hs IH]; intros [|p ps] o o' F; try destruct F; auto. destruct H as (_ & F). cbn. f_equal. eapply IH, F. Qed.
  Lemma ham_phys : forall (hs : list t) ps o o' i, ham_fit hs ps o o' -> i < length hs -> rbind (rnth hs i) (fun h => rnth (dsh h) 3) = Ok (nth i ps 0).
  Proof.
    induction hs as [|h hs IH]; intros [|p ps] o o' i F Hi; try destruct F; cbn in Hi; try lia. destruct H as (S & F). destruct i as [|i]; [cbn; rewrite S; reflexivity|]. apply (IH ps x o' i F). lia.
  Qed.
  Lemma map_nth_seq (ps : list nat) : map (fun i => nth i ps 0) (seq 0 (length ps)) = ps.
  Proof. apply nth_ext with 0 0; rewrite map_length, seq_length; [reflexivity|]. intros n Hn. rewrite (nth_indep _ 0 (nth 0 ps 0)) by (rewrite map_length, seq_length; exact Hn). rewrite (map_nth (fun i => nth i ps 0)), seq_nth by exact Hn. reflexivity. Qed.
  Lemma random_chain_ok bd ps (phys_dim : nat -> result nat) : 1 <= length ps -> 1 <= bd -> (forall i, i < length ps -> phys_dim i = Ok (nth i ps 0)) ->
    exists sites, random_MPS_impl draw (length ps) bd phys_dim = Ok sites /\ length sites = length ps /\ (forall i, i < length ps -> exists A, nth_error sites i = Some A /\ dsh A = random_shape (length ps) bd ps i /\ forall j, dv A j = draw i j) /\
      mps_fit (@dsh N) idk sites 1 1 /\ map (size 1) sites = ps.
  Proof.
    intros HL Hb HP. destruct (@random_impl_ok (length ps) bd ps phys_dim HL Hb eq_refl HP) as (sites & E & LS & HS).
    exists sites. split; [exact E|]. split; [exact LS|]. split; [exact HS|].
    destruct (@shapes_fit (bond_at (length ps) bd) (fun i => nth i ps 0) sites 0) as (Fi & Ma). { intros i Hi. rewrite LS in Hi. destruct (HS i Hi) as (A & NA & SA & _). exists A. split; [exact NA|exact SA]. }
    rewrite LS in Fi, Ma. cbn [Nat.add] in Fi. rewrite map_nth_seq in Ma. split; [|exact Ma]. unfold bond_at in Fi. rewrite !Nat.eqb_refl, orb_true_r in Fi. exact Fi.
  Qed.
  Theorem random_hamil_ok bd (hs : list t) ps o o' : 1 <= length hs -> 1 <= bd -> ham_fit hs ps o o' ->
    exists sites, random_MPS_hamil draw bd hs = Ok sites /\ length sites = length hs /\ (forall i, i < length hs -> exists A, nth_error sites i = Some A /\ dsh A = random_shape (length hs) bd ps i /\ forall j, dv A j = draw i j) /\
      mps_fit (@dsh N) idk sites 1 1 /\ mpo_fit (@dsh N) idk hs sites sites o o' /\ map (size 1) sites = ps.
  Proof.
    intros HL Hb F. pose proof (@ham_len hs ps o o' F) as LP. rewrite <- LP in HL |- *. destruct (@random_chain_ok bd ps (fun i => do h <- rnth hs i ; rnth (dsh h) 3) HL Hb) as (sites & E & LS & HS & Fi & Ma). { intros i Hi. apply (@ham_phys hs ps o o' i F). rewrite <- LP. exact Hi. }
    exists sites. split; [unfold random_MPS_hamil; rewrite <- LP; exact E|]. split; [exact LS|]. split; [exact HS|]. split; [exact Fi|]. split; [|exact Ma].
    apply (@ham_mpo_fit hs ps); auto. intros A HA. apply In_nth_error in HA as (i & NA). destruct (HS i) as (A' & NA' & SA & _); [rewrite <- LS; apply nth_error_Some; congruence|]. rewrite NA in NA'. injection NA' as <-. rewrite SA. reflexivity.
  Qed.
  Theorem random_list_ok bd ps : 1 <= length ps -> 1 <= bd ->
    exists sites, random_MPS_list draw bd ps = Ok sites /\ length sites = length ps /\ (forall i, i < length ps -> exists A, nth_error sites i = Some A /\ dsh A = random_shape (length ps) bd ps i /\ forall j, dv A j = draw i j) /\
      mps_fit (@dsh N) idk sites 1 1 /\ map (size 1) sites = ps.
  Proof. intros HL Hb. apply random_chain_ok; auto. intros i Hi. unfold rnth. rewrite (nth_error_nth' ps 0 Hi). reflexivity. Qed.
  Theorem random_same_ok len bd p : 1 <= len -> 1 <= bd ->
    exists sites, random_MPS_same draw len bd p = Ok sites /\ length sites = len /\ (forall i, i < len -> exists A, nth_error sites i = Some A /\ dsh A = random_shape len bd (repeat p len) i /\ forall j, dv A j = draw i j) /\
      mps_fit (@dsh N) idk sites 1 1 /\ map (size 1) sites = repeat p len.
  Proof.
    intros HL Hb. pose proof (repeat_length p len) as LP. destruct (@random_chain_ok bd (repeat p len) (fun _ => Ok p)) as (sites & H); [lia|exact Hb| |].
    - intros i Hi. f_equal. symmetry. apply (repeat_spec len). apply nth_In. exact Hi.
    - exists sites. rewrite LP in H. exact H.
  Qed.
  Lemma random_empty bd : random_MPS_hamil draw bd [] = UB /\ random_MPS_list draw bd [] = UB /\ forall p, random_MPS_same draw 0 bd p = UB.
  Proof. repeat split. Qed.
End R.

(** Displacements stated on the dense sites themselves, and examples. *)
From Verif Require Import Base Quantity QuantityProofs Ring Index SpecIndex IndexProofs Dense BTensor SpecBTensor BTensorProofs BTensorThms BTensorEx SpecChain ModelsThms ChainProofs ChainInst ChainEnd SpecEdges SpecSector SpecSvd SvdDense SvdEx MoveOc SpecMove MoveProofs MoveThms MoveInst.
Set Implicit Arguments.

Section D.
  Variable R : ring.
  Notation t := (dense R).
  Notation fit := (mps_fit (@dsh R) (fun k : nat => k)).
  Lemma in3 x s k a b c : a < x -> b < s -> c < k -> in_range [x; s; k] [a; b; c] = true.
  Proof. intros H1 H2 H3. cbn. rewrite !(proj2 (Nat.ltb_lt _ _)) by assumption. reflexivity. Qed.
  Lemma sizes_deq (l l' : list t) j : Forall2 (@dden R) l l' -> map (size (R := R) j) l = map (size j) l'.
  Proof. induction 1 as [|A B l l' [E _] _ IH]; [reflexivity|]. cbn. rewrite IH. unfold size. rewrite E. reflexivity. Qed.
  Lemma amp_deq (l l' : list t) y : Forall2 (@dden R) l l' -> forall x c a b, fit l x y -> in_range (map (size 1) l) c = true -> a < x -> amp l c a b = amp l' c a b.
  Proof.
    induction 1 as [|A B l l' [E V] _ IH]; intros x c a b HF Hc Ha; [reflexivity|]. destruct c as [|s c]; [discriminate|]. cbn in HF. destruct HF as (s' & k & EA & HF).
    cbn [map in_range] in Hc. apply andb_true_iff in Hc as (H1 & H2). apply Nat.ltb_lt in H1. cbn [amp]. unfold size in *. rewrite <- E, EA in *. cbn [nth] in *.
    apply sumf_ext. intros c0 Hc0. apply in_seq in Hc0. rewrite V by (apply in3; lia). rewrite (IH k c c0 b HF H2) by lia. reflexivity.
  Qed.
  Lemma isometry_deq (A B : t) x s k : deq A B -> dsh A = [x; s; k] -> (left_isometry B -> left_isometry A) /\ (right_isometry B -> right_isometry A).
  Proof.
    intros [E V] EA. split; intros H c c' Hc Hc'; specialize (H c c'); unfold size in *; rewrite <- E, EA in *; cbn [nth] in *; rewrite <- (H Hc Hc'); apply sumf_ext; intros i Hi; apply in_seq in Hi; apply sumf_ext; intros j Hj; apply in_seq in Hj; rewrite !V by (apply in3; lia); reflexivity.
  Qed.
  Lemma fit_nth (l : list t) : forall x y j A, fit l x y -> nth_error l j = Some A -> exists x s k, dsh A = [x; s; k].
  Proof. induction l as [|B l IH]; intros x y [|j] A HF E; try discriminate; cbn in HF; destruct HF as (s & k & EB & HF); [injection E as <-; eauto|eapply IH; eauto]. Qed.
  Lemma F2_nth (l l' : list t) j A : Forall2 (@dden R) l l' -> nth_error l j = Some A -> exists B, nth_error l' j = Some B /\ deq A B.
  Proof. intros H. revert j. induction H as [|a b l l' Hab _ IH]; intros [|j] E; try discriminate; [injection E as <-; exists b; auto|apply IH, E]. Qed.

  Variable dsvd : t -> t * t * t.
  Theorem mps_move_dense (sites : list t) x y oc i : (forall M, (exists m n, dsh M = [m; n]) -> thin M (dsvd M) /\ real_entries (snd (fst (dsvd M)))) ->
    fit sites x y -> oc < length sites -> i < length sites ->
    exists sites', mps_move dsvd sites (Z.of_nat oc) (Z.of_nat i) = Ok (sites', Z.of_nat i) /\ fit sites' x y /\ length sites' = length sites /\
      same_state sites sites' x y /\ (forall j, j < Nat.min i oc \/ Nat.max i oc < j -> nth_error sites' j = nth_error sites j) /\
      ((forall j s A M, i < j <= oc \/ oc <= j < i -> mps_move dsvd sites (Z.of_nat oc) (Z.of_nat j) = Ok (s, Z.of_nat j) -> nth_error s j = Some A ->
          cut_matrix (if i <? oc then 1 else 2) A M -> isometries M (dsvd M)) ->
       forall lo hi, centred lo hi oc sites -> centred (Nat.min lo i) (Nat.max hi (S i)) i sites').
  Proof.
    intros HT HF Ho Hi. destruct (@mps_move_ok R dsvd HT sites sites x y oc i (dden_all sites) HF Ho Hi) as (s' & D' & E & F & HF' & L & (S1 & A1) & N & C).
    exists s'. split; [exact E|]. split; [exact HF'|]. split; [exact L|]. split; [|split; [exact N|]].
    - assert (S2 : map (size (R := R) 1) s' = map (size 1) sites) by (rewrite (sizes_deq 1 F); exact S1). split; [exact S2|].
      intros c a b Hc Ha Hb. rewrite (@amp_deq s' D' y F x c a b HF') by (rewrite ?S2; assumption). apply A1; assumption.
    - intros HI lo hi HC. destruct (C (fun j s A H1 H2 H3 M HM => HI j s A M H1 H2 H3 HM) lo hi HC) as (C1 & C2).
      split; intros j A Hj EA; destruct (F2_nth _ F EA) as (B & EB & HB); destruct (fit_nth _ _ _ _ HF' EA) as (x0 & s0 & k0 & E0); apply (isometry_deq HB E0); [apply (C1 j); assumption|apply (C2 j); assumption].
  Qed.
End D.

Lemma one_sided_real (R : ring) (M : dense R) : real_entries (snd (fst (one_sided M))).
Proof. unfold one_sided. destruct (_ <=? _); intros i _; apply rconj_1. Qed.
Lemma both_sided_real (M : dense ring_Z) : real_entries (snd (fst (both_sided M))).
Proof. intros i _. reflexivity. Qed.

(** Two sites, the sum of the occupations is one: amplitudes 10 of (0, 1) and 21 of (1, 0). *)
Definition mvA : zt := zB (q 0) 3 [1; 2; 2] [1; 1; 1; 1; 1] [q 0; q 0; q 1; q 0; q (-1)] [([0; 0; 0], dl [1; 1; 1] [2]%Z); ([0; 1; 1], dl [1; 1; 1] [3]%Z)].
Definition mvB : zt := zB (q 1) 3 [2; 2; 1] [1; 1; 1; 1; 1] [q 0; q 1; q 0; q 1; q 0] [([0; 1; 0], dl [1; 1; 1] [5]%Z); ([1; 0; 0], dl [1; 1; 1] [7]%Z)].
Definition mvx : list nat * list z_group := ([1], [q 0]).
Definition show_sites (x : result (list zt * Z)) : result (list (result (list Z)) * Z) := rmap (fun '(l, o) => (map (fun T => rmap elems (to_dense T)) l, o)) x.
Lemma mv_fit : mps_fit (@blegs z_group ring_Z) (@bdual z_group) [mvA; mvB] mvx mvx.
Proof.
  cbn [mps_fit]. exists ([1; 1], [q 0; q 1]), ([1; 1], [q 0; q (-1)]). split.
  - unfold blegs, bdual. cbn. repeat f_equal; apply sig_eq; reflexivity.
  - exists ([1; 1], [q 0; q 1]), mvx. split; [|reflexivity]. unfold blegs, bdual. cbn. repeat f_equal; apply sig_eq; reflexivity.
Qed.

(** Each sector of the two sites has at most one row and one column. *)
Lemma leg_one (x : nat) (c : z_group) : carries ([1], [q 0]) x c -> x = 0 /\ c = qe z_group.
Proof. intros (b & o & (B1 & B2 & B3) & B4). cbn [fst snd] in *. destruct b as [|b]; [|cbn in B1; lia]. cbn in B2, B3, B4. split; [lia|]. rewrite <- B4. apply sig_eq. reflexivity. Qed.
Lemma leg_two (a a' : z_group) x y c : a <> a' -> carries ([1; 1], [a; a']) x c -> carries ([1; 1], [a; a']) y c -> x = y.
Proof.
  intros NE (b & o & (B1 & B2 & B3) & B4) (b' & o' & (B1' & B2' & B3') & B4'). cbn [fst snd] in *.
  assert (H : b = b') by (destruct b as [|[|]], b' as [|[|]]; cbn in B1, B1', B4, B4'; try lia; try reflexivity; exfalso; congruence).
  subst b'. assert (O1 : nth b [1; 1] 0 = 1) by (destruct b as [|[|]]; cbn in B1 |- *; lia). lia.
Qed.
Lemma sector_small (L : list (list nat * list z_group)) h k a : (forall i j c, index_carries L i c -> index_carries L j c -> i = j) ->
  (forall i, i < k -> index_carries L (h i) a) -> (forall i i', i < k -> i' < k -> h i = h i' -> i = i') -> k <= 1.
Proof. intros HL H I. destruct (Nat.le_gt_cases k 1) as [|L1]; [assumption|]. exfalso. assert (E : 0 = 1); [|lia]. apply I; [lia|lia|]. apply (HL _ _ a); apply H; lia. Qed.
Lemma sector1 (a a' : z_group) : a <> a' -> forall i j c, index_carries [([1; 1], [a; a'])] i c -> index_carries [([1; 1], [a; a'])] j c -> i = j.
Proof.
  intros NE i j c (L & cs & LC & HC & P) (L' & cs' & LC' & HC' & P'). destruct cs as [|u [|]]; try discriminate. destruct cs' as [|u' [|]]; try discriminate. destruct i as [|x [|]]; try discriminate. destruct j as [|y [|]]; try discriminate.
  change (qop z_group u (qe z_group) = c) in P. change (qop z_group u' (qe z_group) = c) in P'. rewrite qop_e_r in P, P'. subst u u'. f_equal. specialize (HC 0 ltac:(cbn; lia)). specialize (HC' 0 ltac:(cbn; lia)). cbn [nth] in HC, HC'. exact (leg_two NE HC HC').
Qed.
Lemma sector2l (a a' : z_group) : a <> a' -> forall i j c, index_carries [([1; 1], [a; a']); ([1], [q 0])] i c -> index_carries [([1; 1], [a; a']); ([1], [q 0])] j c -> i = j.
Proof.
  intros NE i j c (L & cs & LC & HC & P) (L' & cs' & LC' & HC' & P'). destruct cs as [|u [|v [|]]]; try discriminate. destruct cs' as [|u' [|v' [|]]]; try discriminate. destruct i as [|x [|z [|]]]; try discriminate. destruct j as [|y [|w [|]]]; try discriminate.
  pose proof (HC 1 ltac:(cbn; lia)) as H1. pose proof (HC' 1 ltac:(cbn; lia)) as H1'. specialize (HC 0 ltac:(cbn; lia)). specialize (HC' 0 ltac:(cbn; lia)). cbn [nth] in *. apply leg_one in H1 as (-> & ->). apply leg_one in H1' as (-> & ->).
  change (qop z_group u (qop z_group (qe z_group) (qe z_group)) = c) in P. change (qop z_group u' (qop z_group (qe z_group) (qe z_group)) = c) in P'. rewrite !qop_e_r in P, P'. subst u u'. f_equal. exact (leg_two NE HC HC').
Qed.
Lemma sector2r (a a' : z_group) : a <> a' -> forall i j c, index_carries [([1], [q 0]); ([1; 1], [a; a'])] i c -> index_carries [([1], [q 0]); ([1; 1], [a; a'])] j c -> i = j.
Proof.
  intros NE i j c (L & cs & LC & HC & P) (L' & cs' & LC' & HC' & P'). destruct cs as [|u [|v [|]]]; try discriminate. destruct cs' as [|u' [|v' [|]]]; try discriminate. destruct i as [|x [|z [|]]]; try discriminate. destruct j as [|y [|w [|]]]; try discriminate.
  pose proof (HC 1 ltac:(cbn; lia)) as H1. pose proof (HC' 1 ltac:(cbn; lia)) as H1'. specialize (HC 0 ltac:(cbn; lia)). specialize (HC' 0 ltac:(cbn; lia)). cbn [nth] in *. apply leg_one in HC as (-> & ->). apply leg_one in HC' as (-> & ->).
  change (qop z_group (qe z_group) (qop z_group v (qe z_group)) = c) in P. change (qop z_group (qe z_group) (qop z_group v' (qe z_group)) = c) in P'. rewrite qop_e_l, qop_e_r in P, P'. subst v v'. do 2 f_equal. exact (leg_two NE H1 H1').
Qed.
Lemma q_ne1 : q 0 <> q 1. Proof. intros H. apply (f_equal (@proj1_sig _ _)) in H. discriminate. Qed.
Lemma q_ne2 : q 0 <> q (-1). Proof. intros H. apply (f_equal (@proj1_sig _ _)) in H. discriminate. Qed.
Lemma mv_isoB D M : sector_matrix 1 mvB D M -> isometries M (both_sided M).
Proof.
  intros (m & n & f & g & c & c' & SM & _ & HF & HG & IF & IG & _). apply both_sided_iso. exists m, n. split; [exact SM|]. split.
  - exact (@sector_small [([1; 1], [q 0; q 1])] f m c (sector1 q_ne1) HF IF).
  - exact (@sector_small [([1; 1], [q 0; q 1]); ([1], [q 0])] g n c' (sector2l q_ne1) HG IG).
Qed.
Lemma mv_isoA D M : sector_matrix 2 mvA D M -> isometries M (both_sided M).
Proof.
  intros (m & n & f & g & c & c' & SM & _ & HF & HG & IF & IG & _). apply both_sided_iso. exists m, n. split; [exact SM|]. split.
  - exact (@sector_small [([1], [q 0]); ([1; 1], [q 0; q 1])] f m c (sector2r q_ne1) HF IF).
  - exact (@sector_small [([1; 1], [q 0; q (-1)])] g n c' (sector1 q_ne2) HG IG).
Qed.
Lemma mv_stored : exists Ds, Forall2 (stored 100) [mvA; mvB] Ds /\ ~ zero_state Ds 1 1.
Proof.
  assert (VA : valid mvA) by ex_valid. assert (VB : valid mvB) by ex_valid. destruct (to_dense_spec VA) as (DA & EA & FA). destruct (to_dense_spec VB) as (DB & EB & FB).
  exists [DA; DB]. split.
  - constructor; [|constructor; [|constructor]]; (split; [assumption|split; [assumption|]]); intros s Hs; cbn in Hs; lia.
  - intros HZ. assert (H : rmap (fun A => rmap (fun B => Z.eqb (@amp ring_Z [A; B] [0; 1] 0 0) 0) (to_dense mvB)) (to_dense mvA) = Ok (Ok false)) by (vm_compute; reflexivity).
    rewrite EA, EB in H. cbn [rmap rbind] in H. rewrite (HZ [0; 1] 0 0) in H; [discriminate| |lia|lia]. cbn [map]. unfold size. rewrite (proj1 FA), (proj1 FB). reflexivity.
Qed.
Lemma zero_moves : exists (G : abgroup) (R : ring) (sites : list (btensor G R)) Ds x y, Forall2 (stored 100) sites Ds /\ mps_fit (@blegs G R) (@bdual G) sites x y /\ length sites = 2 /\
  (forall T, In T sites -> nonempty T) /\ zero_state Ds (bsz G x) (bsz G y) /\ forall dsvd, bmps_move 100 dsvd sites 1 0 = UB.
Proof.
  assert (V0 : valid ex0) by ex_valid. destruct (dense_of V0) as (D0 & F0). exists z_group, ring_Z, [ex0; ex0], [D0; D0], mvx, mvx. split; [|split; [|split; [reflexivity|split; [|split]]]].
  - constructor; [|constructor; [|constructor]]; (split; [assumption|split; [assumption|]]); intros s Hs; cbn in Hs; lia.
  - cbn [mps_fit]. exists mvx, mvx. split; [unfold blegs, bdual, mvx; cbn; repeat f_equal; apply sig_eq; reflexivity|]. exists mvx, mvx. split; [unfold blegs, bdual, mvx; cbn; repeat f_equal; apply sig_eq; reflexivity|reflexivity].
  - intros T [<-|[<-|[]]]; nonempty_tac.
  - assert (Z0 : forall a b c, in_range [1; 1; 1] [a; b; c] = true -> dv D0 [a; b; c] = 0%Z).
    { intros a b c H. cbn in H. rewrite !andb_true_iff, !Nat.ltb_lt in H. destruct H as (Ha & Hb & Hc & _). pose proof (proj2 F0 [0; 0; 0] [0; 0; 0] eq_refl eq_refl) as H. replace a with 0 by lia. replace b with 0 by lia. replace c with 0 by lia. exact H. }
    assert (S0 : dsh D0 = [1; 1; 1]) by (rewrite (proj1 F0); reflexivity). intros c a b Hc Ha Hb. cbn [map] in Hc. unfold size in Hc. rewrite S0 in Hc. assert (LC := in_range_length _ _ Hc). destruct c as [|i [|j [|]]]; try discriminate. cbn in Hc. rewrite !andb_true_iff, !Nat.ltb_lt in Hc.
    cbn [amp]. unfold size. rewrite S0. cbn [nth]. cbn in Ha. apply sumf_zero. intros k Hk. apply in_seq in Hk. rewrite Z0 by (apply in3; lia). reflexivity.
  - intros dsvd. assert (H : rmap (fun _ => tt) (bmps_move 100 dsvd [ex0; ex0] 1 0) = UB) by (vm_compute; reflexivity). destruct (bmps_move 100 dsvd [ex0; ex0] 1 0); cbn in H; congruence.
Qed.
Lemma bmps_out (G : abgroup) (R : ring) imax dsvd (sites : list (btensor G R)) oc i : (i < 0 \/ Z.of_nat (length sites) <= i)%Z -> bmps_move imax dsvd sites oc i = Throw InvalidArgument.
Proof. intros H. unfold bmps_move, move_to. replace (negb _) with true; [reflexivity|]. symmetry. apply negb_true_iff, andb_false_iff. rewrite Z.leb_gt, Z.ltb_ge. lia. Qed.
Lemma mps_out (R : ring) dsvd (sites : list (dense R)) oc i : (i < 0 \/ Z.of_nat (length sites) <= i)%Z -> mps_move dsvd sites oc i = Throw InvalidArgument.
Proof. intros H. unfold mps_move. replace (negb _) with true; [reflexivity|]. symmetry. apply negb_true_iff, andb_false_iff. rewrite Z.leb_gt, Z.ltb_ge. lia. Qed.

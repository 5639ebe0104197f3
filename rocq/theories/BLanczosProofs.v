(** Block tensors follow dense ones through the update of two sites. *)
From Verif Require Import Base Quantity QuantityProofs FlatMap SpecFlatMap FlatMapProofs FlatMapThms Ring Index SpecIndex IndexProofs Dense BTensor SpecBTensor LegsProofs BTensorProofs BTensorThms
  BTensorArith SpecArith ArithProofs ArithThms Tensordot SpecTensordot TensordotProofs TensordotThms Bcast SpecBcast BcastMain View Chain SpecChain ChainProofs ChainThms ChainInst
  BcastProofs BcastThms Num Eig2 Lanczos BLanczos SpecBLanczos.
From Verif Require ReshapeProofs.
Set Implicit Arguments.

Section P.
  Variable G : abgroup.
  Variable N : numeric.
  Variable imax : nat.
  Notation bt := (btensor G N).
  Notation d := (dense N).
  Notation tl := (@blegs G N).
  Notation dual := (@bdual G).
  Notation den := (@stored G N imax).
  Notation bk := (bk0 G).
  Add Ring Rr : (ring_th N).

  Lemma stored_deq T (D D' : d) : den T D -> deq D D' -> den T D'.
  Proof. intros (V & F & I) E. split; [exact V|]. split; [|exact I]. apply dense_form_deq with D; auto. apply V. Qed.
  Lemma sim_tdot A B DA DB d1 d2 : den A DA -> den B DB -> length d1 = length d2 -> NoDup d1 -> NoDup d2 ->
    (forall k, In k d1 -> k < length (tl A)) -> (forall k, In k d2 -> k < length (tl B)) ->
    gather bk d1 (tl A) = map dual (gather bk d2 (tl B)) -> 0 < length (tl A) -> 0 < length (tl B) ->
    exists C D, tensordot imax A B d1 d2 = Ok C /\ t_tdot DA DB d1 d2 = Ok D /\ den C D /\
      tl C = gather bk (free (length (tl A)) d1) (tl A) ++ gather bk (free (length (tl B)) d2) (tl B) /\
      b_rule C = qop G (b_rule A) (b_rule B) /\ tdot_blocks A B d1 d2 C.
  Proof.
    intros HA HB Hl N1 N2 L1 L2 HS P1 P2. destruct (stored_tdot_full HA HB Hl N1 N2 L1 L2 HS P1 P2) as (C & EC & TC & DC & RC & BC).
    pose proof (stored_shape HA) as SA. pose proof (stored_shape HB) as SB.
    destruct (@dden_tdot N DA DB DA DB d1 d2) as (D & ED & SD & QD); auto; try (split; auto; fail).
    - rewrite SA, map_length. exact L1.
    - rewrite SB, map_length. exact L2.
    - rewrite map_id'. apply (f_equal (map (@bsz G))) in HS. rewrite map_map in HS.
      assert (Q : forall t p, map (@bsz G) (gather bk p (tl t)) = gather 0 p (map (@bsz G) (tl t))) by (intros; apply (map_gather (@bsz G) bk)).
      rewrite SA, SB, <- !Q, HS. reflexivity.
    - rewrite SA, map_length. exact P1.
    - rewrite SB, map_length. exact P2.
    - exists C, D. split; [exact EC|]. split; [exact ED|]. split; [|auto]. apply stored_deq with (d_tdot DA DB d1 d2); [exact DC|].
      destruct QD as [Q1 Q2]. split; [auto|]. intros i Hi. symmetry. apply Q2. rewrite Q1. exact Hi.
  Qed.
  (** Dimensions and rule determine the structure. *)
  Lemma meta_eq (A B : bt) : meta_ok A -> meta_ok B -> tl A = tl B -> b_rule A = b_rule B -> same_meta A B.
  Proof.
    intros MA MB E R. pose proof (f_equal (map fst) E) as E1. rewrite (blegs_fst MA), (blegs_fst MB) in E1.
    assert (snd_eq : forall T : bt, meta_ok T -> map snd (tl T) = qlegs T).
    { intros T M. unfold blegs. assert (HL : length (legs T) = length (qlegs T)) by (rewrite (legs_length M), (qlegs_length M); reflexivity).
      revert HL. generalize (legs T) (qlegs T). induction l as [|a l IH]; intros [|b m] HL; try discriminate; [reflexivity|]. cbn in *. rewrite IH; auto. }
    pose proof (f_equal (map snd) E) as E2. rewrite (snd_eq _ MA), (snd_eq _ MB) in E2.
    assert (ES : b_sbd A = b_sbd B) by (rewrite <- (legs_lens MA), <- (legs_lens MB), E1; reflexivity).
    split; [exact R|]. split; [rewrite <- (proj1 MA), <- (proj1 MB), ES; reflexivity|]. split; [exact ES|].
    split; [destruct MA as (_ & A1 & A2), MB as (_ & B1 & B2)|destruct MA as (_ & A1 & A2), MB as (_ & B1 & B2)].
    - rewrite <- (concat_unpack _ _ A1), <- (concat_unpack _ _ B1). fold (legs A) (legs B). rewrite E1. reflexivity.
    - rewrite <- (concat_unpack _ _ A2), <- (concat_unpack _ _ B2). fold (qlegs A) (qlegs B). rewrite E2. reflexivity.
  Qed.
  Lemma meta_tl (A B : bt) : same_meta A B -> tl A = tl B.
  Proof. intros (_ & _ & E1 & E2 & E3). unfold blegs, legs, qlegs. rewrite E1, E2, E3. reflexivity. Qed.
  Lemma tl_nil (s : bt) : meta_ok s -> tl s = [] -> b_rank s = 0 /\ legs s = [] /\ qlegs s = [].
  Proof.
    intros M E. pose proof (blegs_length M) as L. rewrite E in L. split; [auto|]. split; apply length_zero_iff_nil; [rewrite (legs_length M)|rewrite (qlegs_length M)]; auto.
  Qed.
  Lemma tl_of (A : bt) : forall C : bt, legs C = legs A -> qlegs C = qlegs A -> tl C = tl A.
  Proof. intros C E1 E2. unfold blegs. rewrite E1, E2. reflexivity. Qed.
  Lemma map2_repeat_l X Y (f : Y -> X -> X) y l : (forall x, f y x = x) -> map2 f (repeat y (length l)) l = l.
  Proof. intros H. induction l as [|a l IH]; [reflexivity|]. cbn. rewrite H, IH. reflexivity. Qed.
  Lemma has_stores (T : bt) k : has T k <-> stores T k.
  Proof. unfold has, stores. destruct (assoc leqb k (b_blocks T)); split; intros H; eauto; try discriminate; [congruence|destruct H; discriminate]. Qed.
  Lemma bc_scalar_r (A s : bt) : meta_ok A -> b_rank s = 0 -> legs s = [] -> bc_ok A s.
  Proof.
    intros M R L. unfold bc_ok. rewrite R, L, Nat.max_0_r. cbn [Nat.leb]. split.
    - intros k Hk. right. right. unfold pad. cbn [length]. rewrite Nat.sub_0_r, app_nil_r. apply ReshapeProofs.nth_repeat_lt; exact Hk.
    - intros (k & Hk & _). cbn [length] in Hk. lia.
  Qed.
  Lemma bc_scalar_l (A s : bt) : meta_ok A -> 0 < b_rank A -> b_rank s = 0 -> legs s = [] -> bc_ok s A.
  Proof.
    intros M P R L. unfold bc_ok. rewrite R, L. cbn [Nat.max]. destruct (Nat.leb_spec (b_rank A) 0) as [H|_]; [lia|]. split.
    - intros k Hk. right. left. unfold pad. cbn [length]. rewrite Nat.sub_0_r, app_nil_r. apply ReshapeProofs.nth_repeat_lt; exact Hk.
    - intros (k & Hk & _). cbn [length] in Hk. lia.
  Qed.
  Lemma bsel_full (A : bt) b : meta_ok A -> in_range (b_sbd A) b = true -> bsel (legs A) b = b.
  Proof.
    intros M H. pose proof (in_range_length _ _ H) as L. unfold bsel. rewrite L, (proj1 M), (legs_length M), Nat.sub_diag. cbn [skipn]. apply sel_all. rewrite (legs_lens M). exact H.
  Qed.
  Lemma has_range (T : bt) k : valid T -> has T k -> in_range (b_sbd T) k = true.
  Proof. intros V H. unfold has in H. destruct (assoc leqb k (b_blocks T)) as [B|] eqn:E; [|congruence]. apply (valid_assoc _ V E). Qed.

  Lemma sim_scalar_r (f : N -> N -> N) A s DA Ds : den A DA -> den s Ds -> tl s = [] -> b_rule s = qe G ->
    (forall y, f rz y = rz) -> (has s [] \/ forall x, f x rz = rz) ->
    exists C D, broadcast_operation f A s = Ok C /\ t_zip false f DA Ds = Ok D /\ den C D /\ tl C = tl A /\ b_rule C = b_rule A /\ forall k, has C k <-> has A k /\ has s [].
  Proof.
    intros (VA & FA & IA) (Vs & Fs & Is) Ts Rs F1 F2. pose proof VA as [MA _]. pose proof Vs as [Ms _]. destruct (tl_nil Ms Ts) as (R0 & L0 & Q0).
    pose proof (bc_scalar_r _ MA R0 L0) as HB. destruct (op_thm f VA Vs HB) as (C & EC & HC). pose proof HC as (VC & RC & LC & QC & SC & _).
    rewrite R0, Nat.max_0_r, L0 in LC. rewrite R0, Nat.max_0_r, Q0 in QC.
    rewrite pad_full in LC by (apply legs_length, MA). rewrite qpad_full in QC by (apply qlegs_length, MA).
    unfold pad in LC. unfold qpad in QC. cbn [length] in LC, QC. rewrite Nat.sub_0_r, app_nil_r in LC, QC.
    rewrite <- (legs_length MA) in LC. rewrite <- (qlegs_length MA) in QC.
    rewrite map2_repeat_r in LC by (intros x; unfold bleg; destruct (leqb x [1]) eqn:E; [apply leqb_eq in E; auto|auto]).
    rewrite map2_repeat_r in QC by apply bqleg_e.
    assert (SB : b_sbd C = b_sbd A) by (rewrite <- (legs_lens (proj1 VC)), <- (legs_lens MA), LC; reflexivity).
    assert (HS : forall k, in_range (b_sbd A) k = true -> (has C k <-> has A k /\ has s [])).
    { intros k Hk. rewrite !has_stores. rewrite SC by (rewrite SB; exact Hk). rewrite (bsel_full _ MA Hk), L0. unfold bsel. cbn [map2]. reflexivity. }
    destruct (op_dense VA Vs HB HC FA Fs) as (D & ED & FD).
    { intros b o Hb Hn. rewrite SB in Hb. rewrite (bsel_full _ MA Hb), L0 in Hn |- *. unfold bsel in Hn |- *. cbn [map2] in Hn |- *.
      destruct (stores_dec A b) as [SA|SA]; [|rewrite (unstored _ SA); apply F1].
      destruct (stores_dec s []) as [S0|S0]; [tauto|]. rewrite (unstored _ S0). destruct F2 as [F2|F2]; [apply has_stores in F2; tauto|apply F2]. }
    exists C, D. split; [exact EC|]. split; [exact ED|]. split.
    { split; [exact VC|]. split; [exact FD|]. rewrite SB. exact IA. }
    split; [apply tl_of; assumption|]. split; [rewrite RC, Rs; apply qop_e_r|].
    intros k. split; intros H; [apply HS in H; auto; rewrite <- SB; apply has_range; assumption|apply HS; auto; apply has_range; tauto].
  Qed.
  Lemma sim_scalar_l (f : N -> N -> N) A s DA Ds : den A DA -> den s Ds -> tl s = [] -> b_rule s = qe G -> 0 < length (tl A) ->
    (forall y, f rz y = rz) -> (forall x, f x rz = rz) ->
    exists C D, broadcast_operation f s A = Ok C /\ t_zip false f Ds DA = Ok D /\ den C D /\ tl C = tl A /\ b_rule C = b_rule A /\ forall k, has C k <-> has A k /\ has s [].
  Proof.
    intros (VA & FA & IA) (Vs & Fs & Is) Ts Rs P F1 F2. pose proof VA as [MA _]. pose proof Vs as [Ms _]. destruct (tl_nil Ms Ts) as (R0 & L0 & Q0). rewrite (blegs_length MA) in P.
    pose proof (bc_scalar_l _ MA P R0 L0) as HB. destruct (op_thm f Vs VA HB) as (C & EC & HC). pose proof HC as (VC & RC & LC & QC & SC & _).
    rewrite R0, L0 in LC. rewrite R0, Q0 in QC. cbn [Nat.max] in LC, QC.
    rewrite (pad_full _ (legs_length MA)) in LC. rewrite (qpad_full _ _ (qlegs_length MA)) in QC.
    unfold pad in LC. unfold qpad in QC. cbn [length] in LC, QC. rewrite Nat.sub_0_r, app_nil_r in LC, QC.
    rewrite <- (legs_length MA) in LC. rewrite <- (qlegs_length MA) in QC.
    rewrite map2_repeat_l in LC by (intros x; reflexivity).
    rewrite map2_repeat_l in QC by (intros x; rewrite bqleg_sym by (cbn [length]; auto); apply bqleg_e).
    assert (SB : b_sbd C = b_sbd A) by (rewrite <- (legs_lens (proj1 VC)), <- (legs_lens MA), LC; reflexivity).
    assert (HS : forall k, in_range (b_sbd A) k = true -> (has C k <-> has A k /\ has s [])).
    { intros k Hk. rewrite !has_stores. rewrite SC by (rewrite SB; exact Hk). rewrite (bsel_full _ MA Hk), L0. unfold bsel. cbn [map2]. tauto. }
    destruct (op_dense Vs VA HB HC Fs FA) as (D & ED & FD).
    { intros b o Hb Hn. rewrite SB in Hb. rewrite (bsel_full _ MA Hb), L0 in Hn |- *. unfold bsel in Hn |- *. cbn [map2] in Hn |- *.
      destruct (stores_dec A b) as [SA|SA]; [|rewrite (unstored _ SA); apply F2].
      destruct (stores_dec s []) as [S0|S0]; [tauto|]. rewrite (unstored _ S0). apply F1. }
    exists C, D. split; [exact EC|]. split; [exact ED|]. split.
    { split; [exact VC|]. split; [exact FD|]. rewrite SB. exact IA. }
    split; [apply tl_of; assumption|]. split; [rewrite RC, Rs; apply qop_e_l|].
    intros k. split; intros H; [apply HS in H; auto; rewrite <- SB; apply has_range; assumption|apply HS; auto; apply has_range; tauto].
  Qed.
End P.

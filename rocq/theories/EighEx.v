(** Examples and counterexamples for the block eigenvalue decomposition. *)
From Verif Require Import Base Quantity QuantityProofs Ring RingQc Index SpecIndex Dense IndexProofs BTensor SpecBTensor BTensorProofs BTensorThms BTensorEx SpecReshape SpecChain ChainProofs ChainInst ModelsThms SpecEdges SpecSector
  BSvd SpecSvd SvdMain SvdDense SvdEx BEigh SpecEigh EighThms EighSplit EighRule.
From Coq Require Import Lia QArith Qcanon.
Local Open Scope nat_scope.
Set Implicit Arguments.

(** ** A tensor stored without its zero blocks: the matrix decomposed is not the tensor *)
Definition exO : zt := zB (q 0) 2 [2; 2] [1; 1; 1; 1] [q 0; q 0; q 0; q 0] [([0; 1], dl [1; 1] [1]%Z); ([1; 0], dl [1; 1] [1]%Z)].
Definition onlyM (T : zt) : dense ring_Z := match compact_dense T with Ok ((M, _, _) :: _) => M | _ => dl [] [] end.
Lemma eigh_once (T : zt) upper M rows cols (deigh : bool -> dense ring_Z -> dense ring_Z * dense ring_Z) : compact_dense T = Ok [(M, rows, cols)] -> eigh deigh T upper = eigh (fun _ _ => deigh upper M) T upper.
Proof. intros E. unfold eigh. rewrite E. cbn [rbind]. destruct (eigh_shapes T _) as [(d, U)| |]; [|reflexivity|reflexivity]. cbn [rbind]. destruct (allocate U d _) as [x| |]; [|reflexivity|reflexivity]. reflexivity. Qed.
Definition show2 (x : result (zt * zt)) : result (result (list Z) * result (list Z)) := rmap (fun '(d, U) => (rmap elems (to_dense d), rmap elems (to_dense U))) x.
Definition eighO f g : result (zt * zt) := eigh (fun _ _ => (@mkD ring_Z [2] f, @mkD ring_Z [2; 2] g)) exO true.
Definition dO f g : zt := match eighO f g with Ok (d, _) => d | _ => exO end.
Definition UO f g : zt := match eighO f g with Ok (_, U) => U | _ => exO end.
Lemma exO_ok f g : eighO f g = Ok (dO f g, UO f g).
Proof.
  unfold dO, UO. assert (H : rmap (fun _ => tt) (eighO f g) = Ok tt) by (vm_compute; reflexivity). destruct (eighO f g) as [(d, U)| |]; cbn in H; try discriminate. reflexivity.
Qed.
Lemma exO_valid f g : valid (dO f g) /\ valid (UO f g).
Proof. split; ex_valid. Qed.
Lemma exO_out f g : rmap elems (to_dense (dO f g)) = Ok [f [0]; f [1]] /\ rmap elems (to_dense (UO f g)) = Ok [g [0; 0]; g [0; 1]; g [1; 0]; g [1; 1]].
Proof. split; vm_compute; reflexivity. Qed.
Lemma exO_compact : exists M rows cols, compact_dense exO = Ok [(M, rows, cols)] /\ dsh M = [2; 2] /\ dv M [0; 0] = 1%Z /\ dv M [0; 1] = 0%Z /\ dv M [1; 0] = 0%Z /\ dv M [1; 1] = 1%Z.
Proof.
  assert (H : exists M rows cols, compact_dense exO = Ok [(M, rows, cols)]).
  { assert (H : rmap (@length _) (compact_dense exO) = Ok 1) by (vm_compute; reflexivity). destruct (compact_dense exO) as [[|((M, rows), cols) [|]]| |]; cbn in H; try discriminate. eauto. }
  destruct H as (M & rows & cols & E). exists M, rows, cols. split; [exact E|].
  assert (H : rmap (fun ps : list (dense ring_Z * list (nat * (nat * nat)) * list (nat * (nat * nat))) => match ps with (M, _, _) :: _ => (dsh M, (dv M [0; 0], dv M [0; 1], dv M [1; 0], dv M [1; 1])) | [] => ([], (0, 0, 0, 0)%Z) end) (compact_dense exO) = Ok ([2; 2], (1, 0, 0, 1)%Z)) by (vm_compute; reflexivity).
  rewrite E in H. cbn in H. injection H as H1 H2 H3 H4 H5. split; [exact H1|]. auto.
Qed.
Definition DO : dense ring_Z := match to_dense exO with Ok d => d | _ => dl [] [] end.
Lemma exO_dense : dense_form exO DO.
Proof. assert (VO : valid exO) by ex_valid. destruct (to_dense_spec VO) as (d & E & F). unfold DO. rewrite E. exact F. Qed.
Lemma exO_entries : dv DO [0; 0] = 0%Z /\ dv DO [0; 1] = 1%Z /\ dv DO [1; 0] = 1%Z /\ dv DO [1; 1] = 0%Z.
Proof. vm_compute. auto. Qed.
Definition identity2 (M : dense ring_Z) : Prop := dsh M = [2; 2] /\ forall i j, i < 2 -> j < 2 -> dv M [i; j] = if i =? j then 1%Z else 0%Z.
Lemma order_refuted : exists (T : zt) L D, valid T /\ nonempty T /\ square 1 T L /\ dense_form T D /\ hermitian (map (@bsz _) L) D /\ symmetric_blocks 1 T /\ first_sections 1 T /\ first_quantity 1 T = qe z_group /\
  forall deigh, (forall M, identity2 M -> eigenpairs M (deigh true M)) ->
    exists d U, eigh deigh T true = Ok (d, U) /\ valid d /\ valid U /\ forall Dd DU, dense_form d Dd -> dense_form U DU -> ~ tensor_factors (map (@bsz _) L) (map (@bsz _) L) 2 D DU Dd DU.
Proof.
  exists exO, [([1; 1], [q 0; q 0])], DO. split; [ex_valid|]. split; [nonempty_tac|]. split; [split; [reflexivity|]; split; [|reflexivity]|].
  { cbn. unfold bdual. cbn. repeat f_equal; apply sig_eq; reflexivity. }
  split; [exact exO_dense|]. destruct exO_entries as (O1 & O2 & O3 & O4). split; [|split; [|split; [|split]]].
  - intros [|i [|]] [|j [|]] Hi Hj; try discriminate; try (cbn in Hi; rewrite andb_false_r in Hi; discriminate); try (cbn in Hj; rewrite andb_false_r in Hj; discriminate). destruct i as [|[|]], j as [|[|]]; try discriminate; cbn [app]; rewrite ?O1, ?O2, ?O3, ?O4; reflexivity.
  - intros i j Hi Hj (v & Hv). destruct i as [|a [|]], j as [|b [|]]; try discriminate. cbn in Hv. destruct Hv as [Hv|[Hv|[]]]; injection Hv as <- <- <-; [exists (dl [1; 1] [1]%Z)|exists (dl [1; 1] [1]%Z)]; cbn; auto.
  - intros l Hl. cbn in Hl. destruct Hl as [<-|[]]. cbn. lia.
  - apply sig_eq. reflexivity.
  - intros deigh HE. destruct exO_compact as (M & rows & cols & EC & SM & M1 & M2 & M3 & M4).
    assert (ID : identity2 M) by (split; [exact SM|]; intros [|[|]] [|[|]] Hi Hj; try lia; cbn; assumption).
    specialize (HE M ID). rewrite (@eigh_once exO true M rows cols deigh EC). destruct (deigh true M) as (bD, bU). destruct (HE 2 SM) as ((S1 & S2 & _ & F) & _ & _). destruct bD as [sD f], bU as [sU g]. cbn in S1, S2. subst sD sU.
    exists (dO f g), (UO f g). split; [apply exO_ok|]. destruct (exO_valid f g) as (Vd & VU). split; [exact Vd|]. split; [exact VU|].
    intros Dd DU Fd FU (_ & _ & _ & H). destruct (exO_out f g) as (X1 & X2).
    destruct (to_dense_spec Vd) as (d' & E1 & F1). destruct (to_dense_spec VU) as (U' & E2 & F2). rewrite E1 in X1. rewrite E2 in X2. cbn [rmap] in X1, X2. injection X1 as X1. injection X2 as X2.
    destruct (dense_form_unique (proj1 Vd) Fd F1) as (Q1 & Q2). destruct (dense_form_unique (proj1 VU) FU F2) as (Q3 & Q4).
    assert (Sd : dsh d' = [2]) by (rewrite (proj1 F1); vm_compute; reflexivity). assert (SU : dsh U' = [2; 2]) by (rewrite (proj1 F2); vm_compute; reflexivity).
    unfold elems in X1, X2. rewrite Sd in X1. rewrite SU in X2. cbn in X1, X2. injection X1 as A1 A2. injection X2 as B1 B2 B3 B4.
    specialize (H [0] [0] eq_refl eq_refl). specialize (F 0 0 ltac:(lia) ltac:(lia)). cbn [app] in H. rewrite O1 in H. rewrite M1 in F. cbn in F, H.
    rewrite !Q2, !Q4 in H by (rewrite ?Q1, ?Q3, ?Sd, ?SU; reflexivity). rewrite A1, A2, B1, B2 in H. congruence.
Qed.

(** ** A zero block stored without its transpose: the matrix is not square *)
Definition exN : zt := zB (q 0) 2 [2; 2] [1; 1; 1; 1] [q 0; q 0; q 0; q 0] [([0; 0], dl [1; 1] [1]%Z); ([0; 1], dl [1; 1] [0]%Z)].
Definition DN : dense ring_Z := match to_dense exN with Ok d => d | _ => dl [] [] end.
Lemma storage_refuted : exists (T : zt) L D, valid T /\ nonempty T /\ square 1 T L /\ dense_form T D /\ hermitian (map (@bsz _) L) D /\ columns_in_order 1 T /\ first_sections 1 T /\ first_quantity 1 T = qe z_group /\
  forall deigh upper, eigh deigh T upper = Throw TorchError.
Proof.
  exists exN, [([1; 1], [q 0; q 0])], DN. split; [ex_valid|]. split; [nonempty_tac|]. split; [split; [reflexivity|]; split; [|reflexivity]|].
  { cbn. unfold bdual. cbn. repeat f_equal; apply sig_eq; reflexivity. }
  split; [|split; [|split; [|split; [|split]]]].
  - assert (VO : valid exN) by ex_valid. destruct (to_dense_spec VO) as (d & E & F). unfold DN. rewrite E. exact F.
  - assert (E : dv DN [0; 0] = 1%Z /\ dv DN [0; 1] = 0%Z /\ dv DN [1; 0] = 0%Z /\ dv DN [1; 1] = 0%Z) by (vm_compute; auto). destruct E as (O1 & O2 & O3 & O4).
    intros [|i [|]] [|j [|]] Hi Hj; try discriminate; try (cbn in Hi; rewrite andb_false_r in Hi; discriminate); try (cbn in Hj; rewrite andb_false_r in Hj; discriminate). destruct i as [|[|]], j as [|[|]]; try discriminate; cbn [app]; rewrite ?O1, ?O2, ?O3, ?O4; reflexivity.
  - intros i j i' j' Hi Hj Hi' Hj' (v & Hv) (v' & Hv') HLt _. destruct i as [|a [|]], j as [|b [|]], i' as [|a' [|]], j' as [|b' [|]]; try discriminate. cbn in Hv, Hv'. exists [a]. split; [reflexivity|]. split; [left; reflexivity|].
    destruct Hv as [Hv|[Hv|[]]]; injection Hv as <- <- <-; destruct Hv' as [Hv'|[Hv'|[]]]; injection Hv' as <- <- <-; try discriminate. exists (dl [1; 1] [1]%Z). left. reflexivity.
  - intros l Hl. cbn in Hl. destruct Hl as [<-|[]]. cbn. lia.
  - apply sig_eq. reflexivity.
  - intros deigh upper. assert (H : rmap (fun _ => tt) (eigh deigh exN upper) = Throw TorchError) by (vm_compute; reflexivity). destruct (eigh deigh exN upper); cbn in H; congruence.
Qed.

(** ** No block at all *)
Definition exZ : zt := zB (q 0) 2 [1; 1] [1; 1] [q 0; q 0] [].
Lemma zero_refuted : exists (T : zt) L D, valid T /\ nonempty T /\ square 1 T L /\ dense_form T D /\ hermitian (map (@bsz _) L) D /\ b_blocks T = [] /\ first_sections 1 T /\ first_quantity 1 T = qe z_group /\
  forall deigh, eigh_split deigh T 1 = UB.
Proof.
  assert (VO : valid exZ) by ex_valid. destruct (to_dense_spec VO) as (d & E & F).
  exists exZ, [([1], [q 0])], d. split; [exact VO|]. split; [nonempty_tac|]. split; [split; [reflexivity|]; split; [|reflexivity]|].
  { cbn. unfold bdual. cbn. repeat f_equal; apply sig_eq; reflexivity. }
  split; [exact F|]. split; [|split; [reflexivity|split; [|split]]].
  - intros [|i [|]] [|j [|]] Hi Hj; try discriminate; try (cbn in Hi; rewrite andb_false_r in Hi; discriminate); try (cbn in Hj; rewrite andb_false_r in Hj; discriminate). destruct i, j; try discriminate. reflexivity.
  - intros l Hl. cbn in Hl. destruct Hl as [<-|[]]. cbn. lia.
  - apply sig_eq. reflexivity.
  - intros deigh. assert (H : rmap (fun _ => tt) (eigh_split deigh exZ 1) = UB) by (vm_compute; reflexivity). destruct (eigh_split deigh exZ 1); cbn in H; congruence.
Qed.

(** ** Rotation by the angle with cosine 3/5 *)
Notation qt := (btensor z_group ring_Qc).
Notation qB := (@mkB z_group ring_Qc).
Definition dq (sh : list nat) (l : list ring_Qc) : dense ring_Qc := @mkD ring_Qc sh (fun i => nth (rowmajor sh i) l (@rz ring_Qc)).
(** Finds the eigenvectors of the matrix with entries 41, -12, -12, 34 and of the one with both indices exchanged; those of matrices with one row. *)
Definition rot (upper : bool) (M : dense ring_Qc) : dense ring_Qc * dense ring_Qc :=
  match nth 0 (dsh M) 0 with
  | 2 => (dq [2] [qc 25 1; qc 50 1], if Qle_bool (this (dv M [1; 1])) (this (dv M [0; 0])) then dq [2; 2] [qc 3 5; qc (-4) 5; qc 4 5; qc 3 5] else dq [2; 2] [qc 4 5; qc 3 5; qc 3 5; qc (-4) 5])
  | n => (@mkD ring_Qc [n] (fun i => dv M [0; 0]), d_id ring_Qc n)
  end.
Lemma qc_one (x : Qc) : x = (1 * x * 1 + Q2Qc 0)%Qc. Proof. ring. Qed.
Lemma rot_ok (M : dense ring_Qc) n upper : dsh M = [n; n] -> n <= 2 -> (n = 2 -> (dv M [0; 0], dv M [0; 1], dv M [1; 0], dv M [1; 1]) = (qc 41 1, qc (-12) 1, qc (-12) 1, qc 34 1) \/ (dv M [0; 0], dv M [0; 1], dv M [1; 0], dv M [1; 1]) = (qc 34 1, qc (-12) 1, qc (-12) 1, qc 41 1)) -> eigenpairs M (rot upper M).
Proof.
  intros SM HN HE. unfold rot. rewrite SM. cbn [nth]. destruct n as [|[|[|]]]; [| | |lia].
  - intros n E. rewrite SM in E. injection E as <-. split; [|split; [|intros i _; reflexivity]]; [split; [reflexivity|]; split; [reflexivity|]; split; [reflexivity|]; intros; lia|intros c c' Hc; lia].
  - intros n E. rewrite SM in E. injection E as <-. split; [|split; [|intros i _; reflexivity]].
    + split; [reflexivity|]. split; [reflexivity|]. split; [reflexivity|]. intros [|i] [|j] Hi Hj; try lia. cbn. generalize (dv M [0; 0]). intros x. exact (qc_one x).
    + intros [|c] [|c'] Hc Hc'; try lia. apply Qc_is_canon. vm_compute. reflexivity.
  - assert (X : forall (U : dense ring_Qc), dsh U = [2; 2] -> (forall i j, i < 2 -> j < 2 -> dv M [i; j] = sumf ring_Qc (fun c => rmul (rmul (dv U [i; c]) (dv (dq [2] [qc 25 1; qc 50 1]) [c])) (rconj (dv U [j; c]))) (seq 0 2)) -> orthonormal 2 2 U -> eigenpairs M (dq [2] [qc 25 1; qc 50 1], U)).
    { intros U SU H1 H2 n E. rewrite SM in E. injection E as <-. split; [|split; [exact H2|intros i _; reflexivity]]. split; [exact SU|]. split; [reflexivity|]. split; [exact SU|exact H1]. }
    destruct (HE eq_refl) as [E|E]; injection E as E1 E2 E3 E4; rewrite E1, E4.
    + apply X; [reflexivity| |].
      * intros [|[|]] [|[|]] Hi Hj; try lia; rewrite ?E1, ?E2, ?E3, ?E4; apply Qc_is_canon; vm_compute; reflexivity.
      * intros [|[|]] [|[|]] Hi Hj; try lia; apply Qc_is_canon; vm_compute; reflexivity.
    + apply X; [reflexivity| |].
      * intros [|[|]] [|[|]] Hi Hj; try lia; rewrite ?E1, ?E2, ?E3, ?E4; apply Qc_is_canon; vm_compute; reflexivity.
      * intros [|[|]] [|[|]] Hi Hj; try lia; apply Qc_is_canon; vm_compute; reflexivity.
Qed.
(** Three sections, two of them with the same quantity. *)
Definition exR : qt := qB (q 0) 2 [3; 3] [1; 1; 1; 1; 1; 1] [q 0; q 0; q 1; q 0; q 0; q (-1)]
  [([0; 0], dq [1; 1] [qc 41 1]); ([0; 1], dq [1; 1] [qc (-12) 1]); ([1; 0], dq [1; 1] [qc (-12) 1]); ([1; 1], dq [1; 1] [qc 34 1]); ([2; 2], dq [1; 1] [qc 7 1])].
Definition DR : dense ring_Qc := match to_dense exR with Ok d => d | _ => dq [] [] end.
Definition LR : list (list nat * list z_group) := [([1; 1; 1], [q 0; q 0; q 1])].
(** All of it: dimensions (0, 1) and (0, -1) and their duals; the sections with total 0 are the first and the last. *)
Definition exR4 : qt := qB (q 0) 4 [2; 2; 2; 2] [1; 1; 1; 1; 1; 1; 1; 1] [q 0; q 1; q 0; q (-1); q 0; q (-1); q 0; q 1]
  [([0; 0; 0; 0], dq [1; 1; 1; 1] [qc 41 1]); ([0; 0; 1; 1], dq [1; 1; 1; 1] [qc (-12) 1]); ([0; 1; 0; 1], dq [1; 1; 1; 1] [qc 5 1]); ([1; 0; 1; 0], dq [1; 1; 1; 1] [qc 7 1]);
   ([1; 1; 0; 0], dq [1; 1; 1; 1] [qc (-12) 1]); ([1; 1; 1; 1], dq [1; 1; 1; 1] [qc 34 1])].
Definition DR4 : dense ring_Qc := match to_dense exR4 with Ok d => d | _ => dq [] [] end.
Definition LR4 : list (list nat * list z_group) := [([1; 1], [q 0; q 1]); ([1; 1], [q 0; q (-1)])].
Lemma carries_ones (l : list nat) (cs : list z_group) x c : (forall b, b < length l -> nth b l 0 = 1) -> carries (l, cs) x c -> x < length l /\ c = nth x cs (qe z_group).
Proof.
  intros H (b & o & (H1 & H2 & H3) & H4). cbn [fst snd] in *. rewrite (H b H1) in H2. assert (o = 0) by lia. subst o. assert (E : sum_list (firstn b l) = b).
  { clear -H H1. revert l H H1. induction b as [|b IH]; intros [|a l] H H1; cbn in H1; try lia; [reflexivity|]. cbn [firstn]. change (sum_list (a :: firstn b l)) with (a + sum_list (firstn b l)). rewrite (IH l); [|intros c Hc; apply (H (S c)); cbn; lia|lia]. specialize (H 0 ltac:(cbn; lia)). cbn in H. lia. }
  rewrite E, Nat.add_0_r in H3. subst x. auto.
Qed.
Lemma exR_dense : dense_form exR DR /\ dense_form exR4 DR4.
Proof.
  split.
  - assert (VO : valid exR) by ex_valid. destruct (to_dense_spec VO) as (d & E & F). unfold DR. rewrite E. exact F.
  - assert (VO : valid exR4) by ex_valid. destruct (to_dense_spec VO) as (d & E & F). unfold DR4. rewrite E. exact F.
Qed.
Definition z_of (x : z_group) : Z := proj1_sig x.
Lemma exR_correct M : principal 1 exR DR M -> eigenpairs M (rot true M).
Proof.
  intros (n & f & c & SM & HC & HI & HE).
  assert (HF : forall i, i < n -> exists x, f i = [x] /\ x < 3 /\ z_of c = nth x [0; 0; 1]%Z 0%Z).
  { intros i Hi. destruct (HC i Hi) as (L1 & cs & L2 & C & P). specialize (C 0 ltac:(cbn; lia)). destruct (f i) as [|x [|]], cs as [|a [|]]; try discriminate. exists x. split; [reflexivity|]. cbn [nth] in C. change (nth 0 (firstn 1 (blegs exR)) ([], [])) with ([1; 1; 1], [q 0; q 0; q 1]) in C.
    apply carries_ones in C as (Hx & ->); [|intros [|[|[|]]] Hb; cbn in Hb |- *; lia]. cbn in Hx. split; [exact Hx|]. rewrite <- P. destruct x as [|[|[|]]]; try lia; reflexivity. }
  assert (HN : n <= 2).
  { destruct (Nat.le_gt_cases n 2) as [|HN]; [assumption|]. exfalso. destruct (HF 0 ltac:(lia)) as (x & E0 & X1 & X2). destruct (HF 1 ltac:(lia)) as (y & E1 & Y1 & Y2). destruct (HF 2 ltac:(lia)) as (z & E2 & Z1 & Z2).
    assert (A : x <> y) by (intros ->; specialize (HI 0 1 ltac:(lia) ltac:(lia)); rewrite E0, E1 in HI; specialize (HI eq_refl); lia). assert (B : x <> z) by (intros ->; specialize (HI 0 2 ltac:(lia) ltac:(lia)); rewrite E0, E2 in HI; specialize (HI eq_refl); lia). assert (C : y <> z) by (intros ->; specialize (HI 1 2 ltac:(lia) ltac:(lia)); rewrite E1, E2 in HI; specialize (HI eq_refl); lia).
    destruct x as [|[|[|]]], y as [|[|[|]]], z as [|[|[|]]]; try lia; cbn in X2, Y2, Z2; congruence. }
  apply rot_ok with (n := n); [exact SM|exact HN|]. intros ->. rewrite !HE by lia. destruct (HF 0 ltac:(lia)) as (x & E0 & X1 & X2). destruct (HF 1 ltac:(lia)) as (y & E1 & Y1 & Y2). rewrite E0, E1.
  assert (A : x <> y) by (intros ->; specialize (HI 0 1 ltac:(lia) ltac:(lia)); rewrite E0, E1 in HI; specialize (HI eq_refl); lia).
  assert (DV : forall a b, a < 2 -> b < 2 -> dv DR [a; b] = nth (a * 2 + b) [qc 41 1; qc (-12) 1; qc (-12) 1; qc 34 1] (qc 0 1)).
  { intros [|[|]] [|[|]] Ha Hb; try lia; apply Qc_is_canon; vm_compute; reflexivity. }
  cbn [app]. destruct x as [|[|[|]]], y as [|[|[|]]]; try lia; cbn in X2, Y2; try congruence; rewrite !DV by lia; cbn [nth Nat.add Nat.mul]; auto.
Qed.
Lemma exR4_correct M : principal 2 exR4 DR4 M -> eigenpairs M (rot true M).
Proof.
  intros (n & f & c & SM & HC & HI & HE).
  assert (HF : forall i, i < n -> exists x y, f i = [x; y] /\ x < 2 /\ y < 2 /\ z_of c = nth (x * 2 + y) [0; -1; 1; 0]%Z 0%Z).
  { intros i Hi. destruct (HC i Hi) as (L1 & cs & L2 & C & P). pose proof (C 0 ltac:(cbn; lia)) as C0. pose proof (C 1 ltac:(cbn; lia)) as C1. destruct (f i) as [|x [|y [|]]], cs as [|a [|b [|]]]; try discriminate. exists x, y. split; [reflexivity|]. cbn [nth] in C0, C1.
    change (nth 0 (firstn 2 (blegs exR4)) ([], [])) with ([1; 1], [q 0; q 1]) in C0. change (nth 1 (firstn 2 (blegs exR4)) ([], [])) with ([1; 1], [q 0; q (-1)]) in C1.
    apply carries_ones in C0 as (Hx & ->); [|intros [|[|]] Hb; cbn in Hb |- *; lia]. apply carries_ones in C1 as (Hy & ->); [|intros [|[|]] Hb; cbn in Hb |- *; lia]. cbn in Hx, Hy. split; [exact Hx|]. split; [exact Hy|]. rewrite <- P. destruct x as [|[|]], y as [|[|]]; try lia; reflexivity. }
  assert (DIFF : forall i j x y x' y', i < n -> j < n -> i <> j -> f i = [x; y] -> f j = [x'; y'] -> x * 2 + y <> x' * 2 + y' \/ 2 <= y \/ 2 <= y').
  { intros i j x y x' y' Hi Hj N F1 F2. destruct (Nat.eq_dec (x * 2 + y) (x' * 2 + y')) as [E|E]; [|auto]. right. destruct (Nat.le_gt_cases 2 y) as [|Hy]; [auto|]. destruct (Nat.le_gt_cases 2 y') as [|Hy']; [auto|]. exfalso. apply N, HI; auto. rewrite F1, F2. assert (x = x' /\ y = y') as (-> & ->) by lia. reflexivity. }
  assert (HN : n <= 2).
  { destruct (Nat.le_gt_cases n 2) as [|HN]; [assumption|]. exfalso. destruct (HF 0 ltac:(lia)) as (x & y & E0 & X1 & X2 & X3). destruct (HF 1 ltac:(lia)) as (x' & y' & E1 & Y1 & Y2 & Y3). destruct (HF 2 ltac:(lia)) as (x2 & y2 & E2 & Z1 & Z2 & Z3).
    pose proof (DIFF 0 1 _ _ _ _ ltac:(lia) ltac:(lia) ltac:(lia) E0 E1) as A. pose proof (DIFF 0 2 _ _ _ _ ltac:(lia) ltac:(lia) ltac:(lia) E0 E2) as B. pose proof (DIFF 1 2 _ _ _ _ ltac:(lia) ltac:(lia) ltac:(lia) E1 E2) as C. clear -X1 X2 X3 Y1 Y2 Y3 Z1 Z2 Z3 A B C.
    destruct x as [|[|]], y as [|[|]]; try lia; destruct x' as [|[|]], y' as [|[|]]; try lia; cbn in *; try lia; destruct x2 as [|[|]], y2 as [|[|]]; cbn in *; try lia; congruence. }
  apply rot_ok with (n := n); [exact SM|exact HN|]. intros ->. rewrite !HE by lia. destruct (HF 0 ltac:(lia)) as (x & y & E0 & X1 & X2 & X3). destruct (HF 1 ltac:(lia)) as (x' & y' & E1 & Y1 & Y2 & Y3). rewrite E0, E1.
  pose proof (DIFF 0 1 _ _ _ _ ltac:(lia) ltac:(lia) ltac:(lia) E0 E1) as A.
  assert (DV : dv DR4 [0; 0; 0; 0] = qc 41 1 /\ dv DR4 [0; 0; 1; 1] = qc (-12) 1 /\ dv DR4 [1; 1; 0; 0] = qc (-12) 1 /\ dv DR4 [1; 1; 1; 1] = qc 34 1) by (repeat split; apply Qc_is_canon; vm_compute; reflexivity). destruct DV as (D1 & D2 & D3 & D4).
  cbn [app]. destruct x as [|[|]], y as [|[|]]; try lia; destruct x' as [|[|]], y' as [|[|]]; try lia; cbn in X3, Y3; try congruence; rewrite ?D1, ?D2, ?D3, ?D4; auto.
Qed.
Lemma exR_square : square 1 exR LR /\ square 2 exR4 LR4.
Proof. split; (split; [reflexivity|]; split; [|reflexivity]); cbn; unfold bdual; cbn; repeat f_equal; apply sig_eq; reflexivity. Qed.
Lemma exR_hermitian : hermitian (map (@bsz _) LR) DR /\ hermitian (map (@bsz _) LR4) DR4.
Proof.
  split.
  - intros i j Hi Hj. apply idxs_In in Hi, Hj. cbn in Hi, Hj. repeat (destruct Hi as [<-|Hi]; [repeat (destruct Hj as [<-|Hj]; [apply Qc_is_canon; vm_compute; reflexivity|]); destruct Hj|]); destruct Hi.
  - intros i j Hi Hj. apply idxs_In in Hi, Hj. cbn in Hi, Hj. repeat (destruct Hi as [<-|Hi]; [repeat (destruct Hj as [<-|Hj]; [apply Qc_is_canon; vm_compute; reflexivity|]); destruct Hj|]); destruct Hi.
Qed.
Lemma exR_all : all_blocks exR /\ all_blocks exR4.
Proof.
  split; intros b (Hb & Hq); apply idxs_In in Hb; cbn in Hb.
  - repeat (destruct Hb as [<-|Hb]; [first [eexists; cbn; eauto 9; fail|exfalso; apply (f_equal z_of) in Hq; vm_compute in Hq; discriminate]|]); destruct Hb.
  - repeat (destruct Hb as [<-|Hb]; [first [eexists; cbn; eauto 9; fail|exfalso; apply (f_equal z_of) in Hq; vm_compute in Hq; discriminate]|]); destruct Hb.
Qed.
Definition q_elems (d : dense ring_Qc) : list Q := map (fun i => this (dv d i)) (idxs (dsh d)).
Definition q_show (x : result (qt * qt)) : result (result (list Q) * result (list Q)) := rmap (fun '(d, U) => (rmap q_elems (to_dense d), rmap q_elems (to_dense U))) x.
Lemma exR_first : first_sections 1 exR /\ first_sections 2 exR4 /\ first_quantity 1 exR = qe z_group /\ first_quantity 2 exR4 = qe z_group.
Proof.
  split; [|split; [|split; apply sig_eq; reflexivity]]; intros l Hl; cbn in Hl; repeat (destruct Hl as [<-|Hl]; [cbn; lia|]); destruct Hl.
Qed.
(** The first section carries the quantity 1. *)
Definition exF : zt := zB (q 0) 2 [1; 1] [1; 1] [q 1; q (-1)] [([0; 0], dl [1; 1] [5]%Z)].

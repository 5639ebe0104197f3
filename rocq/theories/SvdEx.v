(** Examples for the decomposition: one factor is the identity. *)
From Verif Require Import Base Quantity QuantityProofs Ring Index SpecIndex Dense IndexProofs BTensor SpecBTensor BTensorThms BTensorEx TensordotProofs TensordotThms SpecEdges SpecSector BSvd SpecSvd ChainProofs ModelsThms.
From Coq Require Import Lia.
Set Implicit Arguments.

Section S.
  Variable R : ring.
  Add Ring Rr : (ring_th R).
  Definition d_fun (sh : list nat) (f : list nat -> R) : dense R := mkD sh f.
  Definition d_id (m : nat) : dense R := d_fun [m; m] (fun i => if nth 0 i 0 =? nth 1 i 0 then ro else rz).
  Definition d_ones (m : nat) : dense R := d_fun [m] (fun _ => ro).
  Definition d_adj (M : dense R) : dense R := d_fun [nth 1 (dsh M) 0; nth 0 (dsh M) 0] (fun i => rconj (dv M [nth 1 i 0; nth 0 i 0])).
  Definition one_sided (M : dense R) : dense R * dense R * dense R :=
    let m := nth 0 (dsh M) 0 in let n := nth 1 (dsh M) 0 in
    if m <=? n then (d_id m, d_ones m, d_adj M) else (M, d_ones n, d_id n).
  Lemma one_sided_thin M : (exists m n, dsh M = [m; n]) -> thin M (one_sided M).
  Proof.
    intros (m & n & E). unfold one_sided. rewrite E. cbn [nth]. destruct (Nat.leb_spec m n) as [H|H]; intros m' n' E'; rewrite E in E'; injection E' as <- <-.
    - rewrite Nat.min_l by exact H. split; [reflexivity|]. split; [reflexivity|]. split; [unfold d_adj; cbn; rewrite E; reflexivity|]. intros i j Hi Hj. cbn.
      rewrite (sumf_ext _ _ (fun c => rmul (dv M [c; j]) (if c =? i then ro else rz))); [rewrite sum_delta; [reflexivity|exact Hi]|]. intros c _. rewrite rconj_conj, Nat.eqb_sym. destruct (c =? i); ring.
    - rewrite Nat.min_r by lia. split; [exact E|]. split; [reflexivity|]. split; [reflexivity|]. intros i j Hi Hj. cbn.
      rewrite (sumf_ext _ _ (fun c => rmul (dv M [i; c]) (if c =? j then ro else rz))); [rewrite sum_delta; [reflexivity|exact Hj]|]. intros c _. rewrite Nat.eqb_sym. destruct (c =? j); [rewrite rconj_1; ring|rewrite rconj_0; ring].
  Qed.
  (** Matrices of one element: both factors are the identity. *)
  Definition both_sided (M : dense R) : dense R * dense R * dense R :=
    if (nth 0 (dsh M) 0 =? 1) && (nth 1 (dsh M) 0 =? 1) then (d_id 1, d_fun [1] (fun i => dv M [0; nth 0 i 0]), d_id 1) else one_sided M.
  Lemma both_sided_thin M : (exists m n, dsh M = [m; n]) -> thin M (both_sided M).
  Proof.
    intros (m & n & E). unfold both_sided. destruct (_ && _) eqn:C; [|apply one_sided_thin; eauto]. rewrite E in C. cbn in C. apply andb_true_iff in C as (C1 & C2). apply Nat.eqb_eq in C1, C2. subst m n.
    intros m' n' E'. rewrite E in E'. injection E' as <- <-. cbn [Nat.min]. split; [reflexivity|]. split; [reflexivity|]. split; [reflexivity|]. intros [|i] [|j] Hi Hj; try lia. cbn. rewrite Nat.eqb_refl, rconj_1. ring.
  Qed.
  Lemma both_sided_iso M : (exists m n, dsh M = [m; n] /\ m <= 1 /\ n <= 1) -> isometries M (both_sided M).
  Proof.
    intros (m & n & E & Hm & Hn). unfold both_sided. rewrite E. cbn [nth].
    destruct m as [|[|]]; [|destruct n as [|[|]]; [|cbn [Nat.eqb andb]|lia]|lia]; try (cbn [Nat.eqb andb]; destruct (one_sided M) as ((U, d), V); intros m' n' E'; rewrite E in E'; injection E' as <- <-; cbn [Nat.min]; split; intros c c' Hc; lia).
    intros m' n' E'. rewrite E in E'. injection E' as <- <-. cbn [Nat.min]. split; intros [|c] [|c'] Hc Hc'; try lia; cbn; rewrite Nat.eqb_refl, rconj_1; ring.
  Qed.
End S.
Definition ex0 : zt := zB (q 0) 3 [1; 1; 1] [1; 1; 1] [q 0; q 0; q 0] [].
Ltac nonempty_tac := intros l Hl; cbn in Hl; repeat (destruct Hl as [<-|Hl]; [cbn; lia|]); destruct Hl.
Lemma svd_split_zero : exists (G : abgroup) (R : ring) (T : btensor G R), valid T /\ nonempty T /\ b_rank T = 3 /\ b_blocks T = [] /\
  forall dsvd, svd_split dsvd T 1 = UB.
Proof.
  exists _, _, ex0. split; [ex_valid|]. split; [nonempty_tac|]. split; [reflexivity|]. split; [reflexivity|]. intros dsvd.
  assert (H : rmap (fun _ => tt) (svd_split dsvd ex0 1) = UB) by (vm_compute; reflexivity).
  destruct (svd_split dsvd ex0 1); cbn in H; congruence.
Qed.

(** Two rows and two columns of different quantities. *)
Definition ex1 : zt := zB (q 1) 2 [2; 2] [1; 1; 1; 1] [q 0; q 1; q 0; q 1] [([0; 1], dl [1; 1] [5]%Z); ([1; 0], dl [1; 1] [7]%Z)].
Lemma ex1_leg (x y : nat) c : carries ([1; 1], [q 0; q 1]) x c -> carries ([1; 1], [q 0; q 1]) y c -> x = y.
Proof.
  intros (b & o & (B1 & B2 & B3) & B4) (b' & o' & (B1' & B2' & B3') & B4'). cbn [fst snd] in *.
  assert (H : b = b').
  { destruct b as [|[|]], b' as [|[|]]; cbn in B1, B1'; try lia; try reflexivity; exfalso; rewrite <- B4' in B4; cbn [nth] in B4; apply (f_equal (@proj1_sig _ _)) in B4; vm_compute in B4; discriminate. }
  subst b'. assert (O1 : nth b [1; 1] 0 = 1) by (destruct b as [|[|]]; cbn in B1 |- *; lia). lia.
Qed.
Lemma ex1_sector D M : sector_matrix 1 ex1 D M -> exists m n, dsh M = [m; n] /\ m <= 1 /\ n <= 1.
Proof.
  intros (m & n & f & g & c & c' & SM & _ & HF & HG & IF & IG & _). exists m, n. split; [exact SM|].
  assert (LEG : forall h k (a : z_group), (forall i, i < k -> @index_carries z_group [([1; 1], [q 0; q 1])] (h i) a) -> (forall i i', i < k -> i' < k -> h i = h i' -> i = i') -> k <= 1).
  { intros h k a H I. destruct (Nat.le_gt_cases k 1) as [|L]; [assumption|]. exfalso. assert (E : 0 = 1); [|lia]. apply I; [lia|lia|].
    destruct (H 0 ltac:(lia)) as (L0 & cs & LC & C0 & P0). destruct (H 1 L) as (L1 & cs' & LC' & C1 & P1). specialize (C0 0 ltac:(cbn; lia)). specialize (C1 0 ltac:(cbn; lia)). cbn [nth] in C0, C1.
    destruct cs as [|x [|]], cs' as [|x' [|]]; try discriminate. cbn [nth] in *. change (qop z_group x (qe z_group) = a) in P0. change (qop z_group x' (qe z_group) = a) in P1. rewrite qop_e_r in P0, P1. subst x x'.
    destruct (h 0) as [|y [|]], (h 1) as [|y' [|]]; try discriminate. cbn [nth] in *. f_equal. eapply ex1_leg; eauto. }
  split; eapply LEG; eauto.
Qed.

(** Rank three: two sectors in each cut. *)
Definition ex3 : zt := zB (q 1) 3 [2; 2; 2] [1; 2; 1; 1; 1; 1] [q 0; q 1; q 0; q 1; q 0; q 1]
  [([0; 0; 1], dl [1; 1; 1] [2]%Z); ([0; 1; 0], dl [1; 1; 1] [3]%Z); ([1; 0; 0], dl [2; 1; 1] [4; 5]%Z)].
Definition show (x : result (zt * zt * zt)) : result (result (list Z) * result (list Z) * result (list Z)) :=
  rmap (fun '(U, d, V) => (rmap elems (to_dense U), rmap elems (to_dense d), rmap elems (to_dense V))) x.

(** Examples of decompositions of dense tensors, and tensors for which the truncated one is not what its name says. *)
From Verif Require Import Base Ring Index SpecIndex Dense IndexProofs BTensor Tensordot SpecChain SpecMove SpecSvd Truncate SpecTruncate Num SpecEigh BTrunc SiteUpdate DenseEigh SpecDenseEigh DenseEighThms.
Set Implicit Arguments.

Section X.
  Variable N : numeric.
  Add Ring Rr : (ring_th N).
  Notation t := (dense N).
  Definition mat2 (a b c d : N) : list nat -> N := fun i => match i with [0; 0] => a | [0; 1] => b | [1; 0] => c | [1; 1] => d | _ => rz end.
  Definition vec2 (a b : N) : list nat -> N := fun i => match i with [0] => a | [1] => b | _ => rz end.
  Definition ident : t := mkD [2; 2] (mat2 ro rz rz ro).
  Definition diag (a b : N) : t := mkD [2; 2] (mat2 a rz rz b).
  Ltac pairs := intros [|[|]] [|[|]]; try lia; intros _ _; cbn; cbv beta iota delta [Nat.eqb]; rewrite ?conj0, ?conj1.
  Lemma cut1 (A M : t) : dsh A = [2; 2] -> cut_matrix 1 A M -> dsh M = [2; 2] /\ forall i j, i < 2 -> j < 2 -> dv M [i; j] = dv A [i; j].
  Proof.
    intros EA (SM & VM). rewrite EA in SM, VM. cbn [firstn skipn prod_list fold_right] in SM, VM. split; [exact SM|]. intros i j Hi Hj.
    specialize (VM [i] [j]). cbn in VM. rewrite !andb_true_r, !Nat.mul_1_r, !Nat.add_0_r in VM. apply VM; apply Nat.ltb_lt; assumption.
  Qed.
  Lemma diag_pairs (a b : N) (M : t) : rconj a = a -> rconj b = b -> cut_matrix 1 (diag a b) M -> eigenpairs M (mkD [2] (vec2 a b), ident).
  Proof.
    intros Ra Rb CM n EM. destruct (@cut1 (diag a b) M eq_refl CM) as (SM & VM). rewrite SM in EM. injection EM as <-. split; [|split].
    - split; [reflexivity|]. split; [reflexivity|]. split; [reflexivity|]. intros i j Hi Hj. rewrite VM by assumption. revert i j Hi Hj. pairs; ring.
    - intros c c'. revert c c'. pairs; ring.
    - intros i Hi. destruct i as [|x [|]]; try (cbn in Hi; rewrite ?andb_false_r in Hi; discriminate Hi). cbn in Hi. rewrite andb_true_r in Hi. apply Nat.ltb_lt in Hi. destruct x as [|[|]]; [exact Ra|exact Rb|lia].
  Qed.
  Lemma diag_herm (a b : N) : rconj a = a -> rconj b = b -> hermitian [2] (diag a b).
  Proof.
    intros Ra Rb i j Hi Hj. destruct i as [|x [|]]; try (cbn in Hi; rewrite ?andb_false_r in Hi; discriminate Hi). destruct j as [|y [|]]; try (cbn in Hj; rewrite ?andb_false_r in Hj; discriminate Hj).
    cbn in Hi, Hj. rewrite andb_true_r in Hi, Hj. apply Nat.ltb_lt in Hi, Hj. destruct x as [|[|]]; try lia; destruct y as [|[|]]; try lia; cbn; rewrite ?conj0; auto.
  Qed.
  Lemma diag_ascending (a b : N) : le N a b -> rconj a = a -> rconj b = b -> ascending_values (mkD [2] (vec2 a b)) 2.
  Proof.
    intros L Ra Rb c c' H1 H2. assert (RE : forall z : N, le N z z) by (intros z; unfold le; rewrite n_le_sub; replace (rsub z z) with (rz : N) by ring; apply nn0).
    destruct c' as [|[|]]; [|destruct c as [|[|]]|]; try lia; cbn; [|exact L|apply RE]. replace c with 0 by lia. apply RE.
  Qed.

  Context {W : weights}.
  Variable wt : N -> W.
  Variable thr : W.
  Lemma diag_run (a b : N) mn mx : (1 <= mn <= mx)%Z -> exists k, d_eigh_trunc (fun _ => (mkD [2] (vec2 a b), ident)) wt thr (diag a b) 1 mn mx =
      Some (Ok (mkD [k] (vec2 a b), mkD [2; k] (dv (d_reshape [2; 2] ident)))) /\ 1 <= k <= 2 /\ (Z.of_nat k <= mx)%Z /\
      (k < 2 -> wgtb (wt ro) thr = true -> Z.of_nat k = mx) /\ (k = 2 -> (mn <= 1)%Z -> wgtb (wt rz) thr = true \/ wgtb (wt ro) thr = true).
  Proof.
    intros Hm. assert (E : d_eigh (fun _ => (mkD [2] (vec2 a b), ident)) (diag a b) 1 = Ok (mkD [2] (vec2 a b), d_reshape [2; 2] ident)) by reflexivity.
    unfold d_eigh_trunc. rewrite E. cbn [obind]. destruct (@trunc2_ok N W wt thr (mkD [2] (vec2 a b)) (d_reshape [2; 2] ident) [2] 2 mn mx) as (k & ET & B1 & B2 & X1 & X2); try reflexivity; try lia.
    assert (V0 : dv (d_reshape [2; 2] ident) [0; 1] = rz) by reflexivity. assert (V1 : dv (d_reshape [2; 2] ident) [1; 1] = ro) by reflexivity.
    exists k. split; [exact ET|]. split; [exact B1|]. split; [lia|]. split.
    - intros Hk G. apply X1; [exact Hk|]. exists [1]. split; [reflexivity|]. replace k with 1 by lia. unfold row_weight. cbn [Nat.sub seq map app total]. rewrite V1, wadd_comm, wadd_0. exact G.
    - intros -> H1. destruct (X2 1) as (i & Hi & G); [lia|lia|]. destruct i as [|x [|]]; try (cbn in Hi; rewrite ?andb_false_r in Hi; discriminate Hi). cbn in Hi. rewrite andb_true_r in Hi. apply Nat.ltb_lt in Hi.
      unfold row_weight in G. cbn [Nat.sub seq map app total] in G. rewrite wadd_comm, wadd_0 in G. destruct x as [|[|]]; [left; rewrite V0 in G; exact G|right; rewrite V1 in G; exact G|lia].
  Qed.
  (** The diagonal of zero and one, one value kept. *)
  Lemma largest_dropped : exists (deigh : t -> t * t) (A d U : t), dsh A = [2; 2] /\ hermitian [2] A /\
    (forall M, cut_matrix 1 A M -> eigenpairs M (deigh M) /\ ascending_values (fst (deigh M)) 2) /\
    d_eigh_trunc deigh wt thr A 1 1 1 = Some (Ok (d, U)) /\ dsh d = [1] /\ dv d [0] = rz /\ dv A [1; 1] = ro /\
    exists d' U', tensor_factors [2] [2] 1 A U' d' U' /\ tensor_orthonormal [2] 1 U'.
  Proof.
    destruct (@diag_run rz ro 1 1) as (k & E & B1 & B2 & _); [lia|]. assert (k = 1) as -> by lia.
    exists (fun _ => (mkD [2] (vec2 rz ro), ident)), (diag rz ro). eexists _, _. split; [reflexivity|]. split; [apply diag_herm; [apply conj0|apply conj1]|].
    split; [intros M CM; split; [apply diag_pairs; [apply conj0|apply conj1|exact CM]|apply diag_ascending; [unfold le; apply nn1|apply conj0|apply conj1]]|].
    split; [|].
    - exact E.
    - split; [reflexivity|]. split; [reflexivity|]. split; [reflexivity|].
      exists (mkD [1] (fun _ => ro)), (mkD [2; 1] (fun i => match i with [1; _] => ro | _ => rz end)). split.
      + split; [reflexivity|]. split; [reflexivity|]. split; [reflexivity|]. intros i j Hi Hj.
        destruct i as [|x [|]]; try (cbn in Hi; rewrite ?andb_false_r in Hi; discriminate Hi). destruct j as [|y [|]]; try (cbn in Hj; rewrite ?andb_false_r in Hj; discriminate Hj).
        cbn in Hi, Hj. rewrite andb_true_r in Hi, Hj. apply Nat.ltb_lt in Hi, Hj. destruct x as [|[|]]; try lia; destruct y as [|[|]]; try lia; cbn; rewrite ?conj0, ?conj1; ring.
      + intros c c' Hc Hc'. replace c with 0 by lia. replace c' with 0 by lia. cbn. cbv beta iota delta [Nat.eqb]. rewrite conj0, conj1. ring.
  Qed.
  (** Values that weigh less than the threshold are kept when the eigenvectors weigh more. *)
  Lemma small_kept : wgtb (wt ro) thr = true -> wgtb (wadd (wt rz) (wt rz)) thr = false -> exists (deigh : t -> t * t) (A d U : t), dsh A = [2; 2] /\ hermitian [2] A /\
    (forall M, cut_matrix 1 A M -> eigenpairs M (deigh M) /\ ascending_values (fst (deigh M)) 2) /\
    d_eigh_tol deigh wt thr A 1 = Some (Ok (d, U)) /\ dsh d = [2] /\ wgtb (row_weight wt 2 0 d []) thr = false.
  Proof.
    intros W1 W0. destruct (@diag_run rz rz 1 (2 ^ 64 - 1)) as (k & E & B1 & B2 & B3 & _); [lia|]. assert (k = 2) as -> by (assert (D : k = 2 \/ k < 2) by lia; destruct D as [D|D]; [exact D|]; specialize (B3 D W1); lia).
    exists (fun _ => (mkD [2] (vec2 rz rz), ident)), (diag rz rz). eexists _, _. split; [reflexivity|]. split; [apply diag_herm; apply conj0|].
    split; [intros M CM; split; [apply diag_pairs; [apply conj0|apply conj0|exact CM]|apply diag_ascending; [unfold le; apply nn0|apply conj0|apply conj0]]|].
    split; [|].
    - exact E.
    - split; [reflexivity|]. unfold row_weight. cbn. rewrite (wadd_comm W (wt rz) wz), wadd_0. exact W0.
  Qed.
  (** A value that weighs more than the threshold is dropped when the eigenvectors weigh less. *)
  Lemma large_dropped (x : N) : le N rz x -> wgtb (wt ro) thr = false -> wgtb (wt rz) thr = false -> wgtb (wt x) thr = true ->
    exists (deigh : t -> t * t) (A d U : t), dsh A = [2; 2] /\ hermitian [2] A /\
    (forall M, cut_matrix 1 A M -> eigenpairs M (deigh M) /\ ascending_values (fst (deigh M)) 2) /\
    d_eigh_tol deigh wt thr A 1 = Some (Ok (d, U)) /\ dsh d = [1] /\ dv d [0] = rz /\ dv A [1; 1] = x.
  Proof.
    intros Lx W1 W0 WX. assert (Rx : rconj x = x) by (apply (n_nn_conj N), Lx).
    destruct (@diag_run rz x 1 (2 ^ 64 - 1)) as (k & E & B1 & B2 & _ & B3); [lia|]. assert (k = 1) as -> by (assert (D : k = 2 \/ k < 2) by lia; destruct D as [D|D]; [|lia]; destruct (B3 D) as [Q|Q]; [lia|congruence|congruence]).
    exists (fun _ => (mkD [2] (vec2 rz x), ident)), (diag rz x). eexists _, _. split; [reflexivity|]. split; [apply diag_herm; [apply conj0|exact Rx]|].
    split; [intros M CM; split; [apply diag_pairs; [apply conj0|exact Rx|exact CM]|apply diag_ascending; [exact Lx|apply conj0|exact Rx]]|].
    split; [|].
    - exact E.
    - split; [reflexivity|]. split; reflexivity.
  Qed.

  (** The exchange of two states, with other numbers in the upper half: a tensor of rank four. *)
  Definition h : N := n_inv N (n_sqrt N (two N)).
  Definition swap_low : t := mkD [1; 2; 1; 2] (fun i => match i with [_; 0; _; 1] => two N | [_; 1; _; 0] => ro | _ => rz end).
  Definition swap_all : t := mkD [1; 2; 1; 2] (fun i => match i with [_; 0; _; 1] => ro | [_; 1; _; 0] => ro | _ => rz end).
  Definition swap_eigh (M : t) : t * t := (mkD [2] (vec2 (ropp ro) ro), mkD [2; 2] (mat2 h h (ropp h) h)).
  Lemma h_sq : radd (rmul h h) (rmul h h) = ro.
  Proof.
    assert (S : rmul (n_sqrt N (two N)) (n_sqrt N (two N)) = two N) by (apply n_sqrt_sq, n_nn_add; apply nn1).
    assert (Z : n_sqrt N (two N) <> rz) by (intros E; rewrite E in S; apply (two_neq N); rewrite <- S; ring).
    pose proof (n_inv_ok N Z) as I. fold h in I. transitivity (rmul (two N) (rmul h h)); [unfold two; ring|]. rewrite <- S.
    transitivity (rmul (rmul (n_sqrt N (two N)) h) (rmul (n_sqrt N (two N)) h)); [ring|]. rewrite I. ring.
  Qed.
  Lemma h_real : rconj h = h.
  Proof.
    apply n_nn_conj. apply nn_inv; [apply n_sqrt_nn, n_nn_add; apply nn1|].
    intros E. apply (two_neq N). rewrite <- (n_sqrt_sq N (two N)), E by (apply n_nn_add; apply nn1). ring.
  Qed.
  Lemma swap_ex : dsh swap_low = [1; 2] ++ [1; 2] /\ dsh swap_all = [1; 2] ++ [1; 2] /\ hermitian [1; 2] swap_all /\ lower_half [1; 2] swap_low swap_all /\
    dv swap_low [0; 0; 0; 1] <> dv swap_all [0; 0; 0; 1] /\ (forall M, cut_matrix 2 swap_low M -> eigh_lower swap_eigh M).
  Proof.
    assert (IX : forall i, in_range [1; 2] i = true -> i = [0; 0] \/ i = [0; 1]).
    { intros i Hi. apply idxs_In in Hi. cbn in Hi. destruct Hi as [<-|[<-|[]]]; auto. }
    split; [reflexivity|]. split; [reflexivity|]. split; [|split; [|split]].
    - intros i j Hi Hj. destruct (IX i Hi) as [-> | ->], (IX j Hj) as [-> | ->]; cbn; rewrite ?conj0, ?conj1; reflexivity.
    - intros i j Hi Hj. destruct (IX i Hi) as [-> | ->], (IX j Hj) as [-> | ->]; cbn; intros; try reflexivity. lia.
    - cbn. intros E. apply (n_one N). transitivity (rsub (two N) ro : N); [unfold two; ring|rewrite E; ring].
    - intros M (SM & VM) H n EM EH HH HL m EH'. cbn in SM. rewrite SM in EM. injection EM as <-. rewrite EH in EH'. injection EH' as <-. clear H0.
      destruct HH as (n & EH2 & HH). rewrite EH in EH2. injection EH2 as <-. clear H0. cbn [firstn skipn dsh swap_low] in VM.
      assert (M00 : dv H [0; 0] = rz) by (etransitivity; [symmetry; apply (HL [0] [0]); (reflexivity || (cbn; lia))|]; exact (VM [0; 0] [0; 0] eq_refl eq_refl)).
      assert (M10 : dv H [1; 0] = ro) by (etransitivity; [symmetry; apply (HL [1] [0]); (reflexivity || (cbn; lia))|]; exact (VM [0; 1] [0; 0] eq_refl eq_refl)).
      assert (M11 : dv H [1; 1] = rz) by (etransitivity; [symmetry; apply (HL [1] [1]); (reflexivity || (cbn; lia))|]; exact (VM [0; 1] [0; 1] eq_refl eq_refl)).
      assert (M01 : dv H [0; 1] = ro) by (rewrite HH by lia; rewrite M10; apply conj1).
      pose proof h_sq as HQ. pose proof h_real as HR. assert (HN : rconj (ropp h) = ropp h) by (rewrite conj_opp, HR; reflexivity).
      split; [|split].
      + split; [reflexivity|]. split; [reflexivity|]. split; [reflexivity|]. pairs; rewrite ?M00, ?M01, ?M10, ?M11, ?HN, ?HR; try ring; (etransitivity; [symmetry; exact HQ|ring]).
      + intros c c'. revert c c'. pairs; rewrite ?HN, ?HR; try ring; (etransitivity; [|exact HQ]; ring).
      + intros i Hi. destruct i as [|x [|]]; try (cbn in Hi; rewrite ?andb_false_r in Hi; discriminate Hi). cbn in Hi. rewrite andb_true_r in Hi. apply Nat.ltb_lt in Hi. destruct x as [|[|]]; [|apply conj1|lia]. cbn. rewrite conj_opp, conj1. reflexivity.
  Qed.
  (** The same for singular values: a tensor of rank three cut before its last dimension. *)
  Definition diag3 : t := mkD [1; 2; 2] (fun i => match i with [_; 0; 0] => two N | [_; 1; 1] => ro | _ => rz end).
  Definition diag_svd (M : t) : t * t * t := (ident, mkD [2] (vec2 (two N) ro), ident).
  Lemma svd_ex : dsh diag3 = [1; 2] ++ [2] /\ forall M, cut_matrix 2 diag3 M -> thin M (diag_svd M) /\ real_entries (snd (fst (diag_svd M))) /\ isometries M (diag_svd M).
  Proof.
    split; [reflexivity|]. intros M (SM & VM). cbn in SM. cbn [firstn skipn dsh diag3] in VM.
    assert (CM : cut_matrix 1 (diag (two N) ro) M).
    { split; [exact SM|]. cbn [firstn skipn dsh diag]. intros i j Hi Hj. destruct i as [|x [|]]; try (cbn in Hi; rewrite ?andb_false_r in Hi; discriminate Hi). destruct j as [|y [|]]; try (cbn in Hj; rewrite ?andb_false_r in Hj; discriminate Hj).
      cbn in Hi, Hj. rewrite andb_true_r in Hi, Hj. apply Nat.ltb_lt in Hi, Hj.
      destruct x as [|[|]]; try lia; destruct y as [|[|]]; try lia; [exact (VM [0; 0] [0] eq_refl eq_refl)|exact (VM [0; 0] [1] eq_refl eq_refl)|exact (VM [0; 1] [0] eq_refl eq_refl)|exact (VM [0; 1] [1] eq_refl eq_refl)]. }
    assert (R2 : rconj (two N) = two N) by (unfold two; rewrite rconj_add, conj1; reflexivity).
    pose proof (@diag_pairs (two N) ro M R2 (conj1 N) CM) as EP. destruct (EP 2 SM) as (HF & HO & HR). split; [|split].
    - intros m n E. rewrite SM in E. injection E as <- <-. exact HF.
    - exact HR.
    - intros m n E. rewrite SM in E. injection E as <- <-. split; exact HO.
  Qed.
End X.

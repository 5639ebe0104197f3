(** Two spins with exchange as a chain of block tensors: values for the example of C83. *)
From Verif Require Import Base Quantity QuantityProofs FlatMap SpecFlatMap FlatMapProofs FlatMapThms Ring Index SpecIndex IndexProofs Dense BTensor SpecBTensor LegsProofs BTensorProofs BTensorThms
  BTensorArith SpecArith Tensordot SpecTensordot TensordotThms View Chain SpecChain ChainProofs ChainThms ChainInst ChainEnd
  SpecMove SpecEdges SpecSector SpecSvd BSvd SvdDense SvdEx MoveOc MoveInst Truncate SpecTruncate TruncateProofs BTrunc SpecBTrunc BTruncProofs BTruncThms
  Num SpecEig2 Lanczos SpecLanczos LanczosVec LanczosProofs LanczosEx BLanczos SpecBLanczos BTensorEx BLanczosEx BLanczosThms BLanczosMain
  SiteUpdate SpecSiteUpdate ChainNorm ChainEnergy SiteUpdateProofs SiteUpdateThms SiteUpdateEx BSiteUpdate SpecBSiteUpdate BSiteUpdateThms BSiteChain.
Set Implicit Arguments.

(** * Tensors with one block for each section of their last dimension *)
Section T.
  Context {G : abgroup} {N : numeric}.
  Notation bt := (btensor G N).
  Lemma tidy_single gtb (d X : bt) v : (forall e e', In e (b_blocks X) -> In e' (b_blocks X) -> section_of e = section_of e' -> e = e') -> tidy gtb d v X.
  Proof. intros H b _. right. intros e e' He He' <- E. apply H; auto. Qed.
End T.

Section Ex.
  Variable N : numeric.
  Add Ring Rr : (ring_th N).
  Notation bt := (btensor z_group N).
  Notation d := (dense N).
  Notation den := (@stored z_group N 100).
  Notation tl := (@blegs z_group N).
  Notation dual := (@bdual z_group).
  Notation xe := (@xe N). Notation ds := (@ds N). Notation dh := (@dh N).
  Notation de := (ex_env N).
  Notation sh := [1; 2; 2; 1].
  Ltac red_ex := cbn; cbv beta iota delta [Nat.eqb andb orb negb].
  Ltac keys Hb := apply idxs_In in Hb; cbn in Hb; repeat (destruct Hb as [<-|Hb]; [|]); [..|contradiction].
  Notation leg := (list nat * list z_group)%type.
  Definition down : leg := ([1], [q (-1)]).
  (** A spin up, a spin down. *)
  Definition xa : bt := @mkB z_group N (q 0) 3 [1; 2; 1] [1; 1; 1; 1] [q 0; q 1; q (-1); q (-1)] [([0; 0; 0], u N 3 ro)].
  Definition xb : bt := @mkB z_group N (q 0) 3 [1; 2; 1] [1; 1; 1; 1] [q 1; q 1; q (-1); q 0] [([0; 1; 0], u N 3 ro)].
  Definition da : d := mkD [1; 2; 1] (fun i => if nth 1 i 0 =? 0 then ro else rz).
  Definition db : d := mkD [1; 2; 1] (fun i => if nth 1 i 0 =? 1 then ro else rz).
  (** The operator: product of the third Pauli matrices plus twice both exchanges. *)
  Definition three : leg := ([1; 1; 1], [q 0; q (-2); q 2]).
  Definition xh1 : bt := @mkB z_group N (q 0) 4 [1; 2; 3; 2] [1; 1; 1; 1; 1; 1; 1; 1] [q 0; q 1; q (-1); q 0; q (-2); q 2; q (-1); q 1]
    [([0; 0; 0; 0], u N 4 ro); ([0; 0; 1; 1], u N 4 (two N)); ([0; 1; 0; 1], u N 4 (ropp ro)); ([0; 1; 2; 0], u N 4 (two N))].
  Definition xh2 : bt := @mkB z_group N (q 0) 4 [3; 2; 1; 2] [1; 1; 1; 1; 1; 1; 1; 1] [q 0; q 2; q (-2); q 1; q (-1); q 0; q (-1); q 1]
    [([0; 0; 0; 0], u N 4 ro); ([0; 1; 0; 1], u N 4 (ropp ro)); ([1; 1; 0; 0], u N 4 ro); ([2; 0; 0; 1], u N 4 ro)].
  Definition pauli (i j : nat) : N := if i =? j then (if i =? 0 then ro else ropp ro) else rz.
  Definition dh1 : d := mkD [1; 2; 3; 2] (fun i => if nth 2 i 0 =? 0 then pauli (nth 1 i 0) (nth 3 i 0) else
    if nth 2 i 0 =? 1 then if (nth 1 i 0 =? 0) && (nth 3 i 0 =? 1) then two N else rz else if (nth 1 i 0 =? 1) && (nth 3 i 0 =? 0) then two N else rz).
  Definition dh2 : d := mkD [3; 2; 1; 2] (fun i => if nth 0 i 0 =? 0 then pauli (nth 1 i 0) (nth 3 i 0) else
    if nth 0 i 0 =? 1 then if (nth 1 i 0 =? 1) && (nth 3 i 0 =? 0) then ro else rz else if (nth 1 i 0 =? 0) && (nth 3 i 0 =? 1) then ro else rz).
  Ltac dens := split; [|split];
    [apply valid_of; [repeat split| |repeat constructor]; intros k t H; repeat (destruct H as [[= <- <-]|H]; [repeat split|]); contradiction
    |split; [reflexivity|]; intros b o Hb Ho;
      match type of Hb with in_range ?s _ = true => let s' := eval cbn in s in change (in_range s' b = true) in Hb end; keys Hb;
      match type of Ho with in_range ?s _ = true => let s' := eval cbn in s in change (in_range s' o = true) in Ho end; keys Ho; reflexivity
    |intros s H; cbn in H; intuition lia].
  Lemma den_xa : den xa da. Proof. dens. Qed.
  Lemma den_xb : den xb db. Proof. dens. Qed.
  Lemma den_xh1 : den xh1 dh1. Proof. dens. Qed.
  Lemma den_xh2 : den xh2 dh2. Proof. dens. Qed.
  Ltac legs := unfold blegs, bdual; cbn; repeat f_equal; apply sig_eq; reflexivity.
  Lemma tl_a : tl xa = [dual bond; spin; down]. Proof. legs. Qed.
  Lemma tl_b : tl xb = [dual down; spin; bond]. Proof. legs. Qed.
  Lemma tl_e : tl xe = [bond; bond; dual bond]. Proof. legs. Qed.
  Lemma tl_e' : tl xe = [dual bond; dual bond; bond]. Proof. legs. Qed.
  Lemma tl_1 : tl xh1 = [dual bond; spin; three; dual spin]. Proof. legs. Qed.
  Lemma tl_2 : tl xh2 = [dual three; spin; bond; dual spin]. Proof. legs. Qed.
  Lemma x_fit : mps_fit tl dual [xa; xb] bond bond.
  Proof. exists spin, down. split; [exact tl_a|]. exists spin, bond. split; [exact tl_b|reflexivity]. Qed.
  Lemma x_ofit : mpo_fit tl dual [xh1; xh2] [xa; xb] [xa; xb] bond bond.
  Proof. exists three, spin, spin. rewrite tl_a. split; [exact tl_1|]. repeat (split; [reflexivity|]). exists bond, spin, spin. rewrite tl_b. split; [exact tl_2|]. repeat split. Qed.

  (** Blocks and rule of what is computed. *)
  Notation keys_ := (rmap (fun P : bt => map fst (b_blocks P))).
  Lemma s_keys : keys_ (merge (tensordot 100) xa xb) = Ok [[0; 0; 1; 0]]. Proof. vm_compute. reflexivity. Qed.
  Lemma H_rule : rmap (fun P : bt => proj1_sig (b_rule P)) (two_sites_hamil (tensordot 100) b_perm xh1 xh2) = Ok 0%Z. Proof. vm_compute. reflexivity. Qed.
  Lemma P_keys : keys_ (rbind (merge (tensordot 100) xa xb) (fun s => rbind (two_sites_hamil (tensordot 100) b_perm xh1 xh2) (fun H => hamil2site_times_state (tensordot 100) s H xe xe))) = Ok [[0; 0; 1; 0]; [0; 1; 0; 0]].
  Proof. vm_compute. reflexivity. Qed.
  Lemma has_in (T : bt) k : In k (map fst (b_blocks T)) -> has T k.
  Proof.
    intros Hk. apply in_map_iff in Hk as ((k', t) & <- & Hk). unfold has. cbn [fst]. intros A. clear - Hk A. induction (b_blocks T) as [|(c, z) l IH]; [destruct Hk|]. cbn [assoc fst snd] in A. destruct (leqb c k') eqn:Q; [discriminate|].
    destruct Hk as [[= -> ->]|Hk]; [|apply IH; assumption]. rewrite (proj2 (leqb_eq k' k') eq_refl) in Q. discriminate.
  Qed.
  Lemma got A B (f : A -> B) (r : result A) b : rmap f r = Ok b -> exists a, r = Ok a /\ f a = b. Proof. destruct r; cbn; try discriminate. intros [= <-]. eauto. Qed.
  Lemma computed : exists s H P, merge (tensordot 100) xa xb = Ok s /\ two_sites_hamil (tensordot 100) b_perm xh1 xh2 = Ok H /\ hamil2site_times_state (tensordot 100) s H xe xe = Ok P /\ conserving xe H xe /\ reached P s.
  Proof.
    destruct (got _ _ s_keys) as (s & Es & E1). destruct (got _ _ H_rule) as (H & EH & E2). destruct (got _ _ P_keys) as (P & EP & E3). rewrite Es, EH in EP. cbn [rbind] in EP. exists s, H, P.
    split; [exact Es|]. split; [exact EH|]. split; [exact EP|]. split.
    - unfold conserving. apply sig_eq. cbn. rewrite E2. reflexivity.
    - assert (S0 : has s [0; 0; 1; 0]) by (apply has_in; rewrite E1; left; reflexivity). split.
      + exists [0; 0; 1; 0]. split; [apply has_in; rewrite E3; left; reflexivity|exact S0].
      + intros k Hk. exists [0; 0; 1; 0]. split; [exact S0|]. apply has_of in Hk. rewrite E3 in Hk. destruct Hk as [<-|[<-|[]]]; reflexivity.
  Qed.

  (** The dense chain. *)
  Lemma pair_ds i : in_range sh i = true -> pair_amp da db i = dv (ds 0) i.
  Proof. intros Hi. keys Hi; rewrite (@pair_val N da db 1 1) by (reflexivity || lia); red_ex; ring. Qed.
  Lemma x_norm : chain_norm [da; db] 1 1 = ro.
  Proof. rewrite (@norm_pair N da db 1 2 1 2 1 eq_refl eq_refl). rewrite <- (s_norm N (a := 0)) by lia. apply sprod_ext; exact pair_ds. Qed.
  Lemma loc_val i j : in_range sh i = true -> in_range sh j = true ->
    local_matrix [] [] dh1 dh2 [] [] de de i j = dv (two_site dh1 dh2) [0; nth 1 i 0; nth 2 i 0; 0; nth 1 j 0; nth 2 j 0].
  Proof.
    intros Hi Hj. unfold local_matrix. cbn [size dsh dh1 dh2 nth seq]. unfold left_part, right_part, element, size. cbn [ex_env dsh nth seq]. keys Hi; keys Hj; unfold two_site; cbn [dv nth]; rewrite !sumf_cons, !sumf_nil; red_ex; rewrite ?conj1; ring.
  Qed.
  (** Between states with opposite spins the matrix is that of C79. *)
  Lemma loc_apply i : in_range sh i = true -> apply sh (local_matrix [] [] dh1 dh2 [] [] de de) (pair_amp da db) i = apply sh (heff de dh de) (dv (ds 0)) i.
  Proof.
    intros Hi. unfold apply. apply sumf_ext. intros j Hj. apply idxs_In in Hj. rewrite pair_ds, loc_val, h_val by assumption. keys Hi; keys Hj; red_ex; unfold two, pauli; red_ex; ring.
  Qed.
  Lemma x_improvable (eps : N) : le N (rmul eps eps) (rmul (two N) (two N)) -> improvable sh (local_matrix [] [] dh1 dh2 [] [] de de) eps (pair_amp da db).
  Proof.
    intros H. left. rewrite <- h_residual_norm in H.
    assert (Q : forall i, in_range sh i = true -> residual sh (local_matrix [] [] dh1 dh2 [] [] de de) (pair_amp da db) i = residual sh (heff de dh de) (dv (ds 0)) i).
    { intros i Hi. unfold residual. rewrite loc_apply, pair_ds by exact Hi. assert (E : energy sh (local_matrix [] [] dh1 dh2 [] [] de de) (pair_amp da db) = energy sh (heff de dh de) (dv (ds 0))) by (apply sprod_ext; [exact pair_ds|exact loc_apply]). rewrite E. reflexivity. }
    unfold le in *. rewrite <- H. f_equal. apply sprod_ext; exact Q.
  Qed.
  Lemma x_hermitian : hermitian_chain [dh1; dh2] de de [2; 2].
  Proof.
    intros x s x' y s' y' Hs Hs' Hx Hy Hx' Hy'. cbn in Hx, Hy, Hx', Hy'. assert (x = 0) by lia. assert (y = 0) by lia. assert (x' = 0) by lia. assert (y' = 0) by lia. subst. unfold operator. cbn [ex_env size dsh nth seq].
    keys Hs; keys Hs'; rewrite !sumf_cons, !sumf_nil; red_ex; unfold pauli; red_ex; unfold two; repeat first [rewrite rconj_add|rewrite rconj_mul|rewrite conj_opp|rewrite conj1|rewrite conj0]; ring.
  Qed.

  (** Order, weights and decomposition for scalars that are real. *)
  Hypothesis RE : forall x : N, rconj x = x.
  Definition n_gtb (x y : N) : bool := negb (n_leb N x y).
  Definition half (x : N) : N := ndiv N x (two N).
  Definition count (x : N) : w_N := if reqb x rz then 0%N else 1%N.
  Lemma le_tot (x y : N) : le N x y \/ le N y x.
  Proof. unfold le. rewrite (n_le_sub N x y), (n_le_sub N y x). replace (rsub x y) with (ropp (rsub y x)) by (unfold rsub; ring). apply n_total, RE. Qed.
  Lemma gtb_order : total_order n_gtb.
  Proof.
    split; unfold n_gtb.
    - intros x. pose proof (le_refl N x) as Q. unfold le in Q. rewrite Q. reflexivity.
    - intros x y z H1 H2. apply negb_true_iff in H1, H2. apply negb_true_iff. destruct (n_leb N x z) eqn:Q; [|reflexivity]. exfalso. destruct (le_tot y x) as [L|L]; [|unfold le in L; congruence]. assert (X : le N y z) by (eapply le_trans; [exact L|exact Q]). unfold le in X. congruence.
    - intros x y H1 H2. apply negb_false_iff in H1, H2. apply le_anti; assumption.
  Qed.
  Lemma half_lower x : n_gtb x rz = true -> n_gtb x (half x) = true.
  Proof.
    unfold n_gtb. rewrite !negb_true_iff. intros H. destruct (n_leb N x (half x)) eqn:Q; [|reflexivity]. rewrite <- H. symmetry. rewrite n_le_sub in Q |- *.
    assert (E : rsub rz x = rmul (two N) (rsub (half x) x)). { unfold rsub, half. transitivity (radd (rmul (two N) (ndiv N x (two N))) (rmul (two N) (ropp x))); [rewrite div_mul by apply two_neq; unfold two; ring|ring]. }
    rewrite E. apply n_nn_mul; [|exact Q]. unfold two. apply n_nn_add; apply nn1.
  Qed.
  Lemma half_0 : half rz = rz. Proof. unfold half, ndiv. ring. Qed.
  Lemma count_exact (l : list N) : wgtb (total count l) (0%N : w_N) = true <-> exists x, In x l /\ x <> rz.
  Proof.
    assert (E : wgtb (total count l) (0%N : w_N) = negb (N.eqb (total count l) 0)) by (cbn; destruct (total count l); reflexivity). rewrite E, negb_true_iff, N.eqb_neq. clear E. induction l as [|a l IH].
    - cbn. split; [congruence|intros (x & [] & _)].
    - cbn [total fold_right map]. change (fold_right _ _ (map count l)) with (total count l). unfold count at 1. destruct (reqb a rz) eqn:Q.
      + change (wadd (0%N : w_N) (total count l)) with (0 + total count l)%N. rewrite N.add_0_l, IH. apply reqb_spec in Q. split; intros (x & Hx & Nx); exists x; (split; [|exact Nx]); [right; exact Hx|destruct Hx as [<-|Hx]; [contradiction|exact Hx]].
      + split; [intros _; exists a; split; [left; reflexivity|]; intros ->; rewrite (proj2 (reqb_spec N _ _) eq_refl) in Q; discriminate|intros _]. change (wadd (1%N : w_N) (total count l)) with (1 + total count l)%N. lia.
  Qed.
  Lemma svd1_gtb (M : d) : (exists m n, dsh M = [m; n]) ->
    thin M (ex_svd1 N M) /\ real_entries (snd (fst (ex_svd1 N M))) /\ SpecBTrunc.descending n_gtb (entries (snd (fst (ex_svd1 N M)))) /\ forall x, In x (entries (snd (fst (ex_svd1 N M)))) -> n_gtb rz x = false.
  Proof.
    intros HM. destruct (proj1 (svd1_ok N) M HM) as (T & R). split; [exact T|]. split; [exact R|]. unfold ex_svd1. destruct (leqb (dsh M) [1; 1]).
    - cbn. split; [intros i j H1 H2; cbn in H2; lia|]. intros x [<-|[]]. unfold n_gtb. rewrite negb_false_iff. apply n_sqrt_nn, n_nn_sq.
    - assert (E : forall x, In x (entries (snd (fst (one_sided M)))) -> x = ro) by (unfold one_sided; destruct (_ <=? _); cbn [fst snd]; intros x Hx; apply in_map_iff in Hx as (i & <- & _); reflexivity).
      split.
      + intros i j H1 H2. rewrite (E (nth j _ rz)), (E (nth i _ rz)) by (apply nth_In; lia). apply gtb_order.
      + intros x Hx. rewrite (E x Hx). unfold n_gtb. rewrite negb_false_iff. apply nn1.
  Qed.
  Lemma svd1_small (M : d) m n : dsh M = [m; n] -> m <= 1 -> n <= 1 -> isometries M (ex_svd1 N M).
  Proof.
    intros S Hm Hn. destruct (Nat.eq_dec m 1) as [->|Nm]; [destruct (Nat.eq_dec n 1) as [->|Nn]; [apply (proj2 (svd1_ok N)), S|]|].
    - assert (n = 0) by lia. subst n. destruct (ex_svd1 N M) as ((U, v), V). intros m' n' E. rewrite S in E. injection E as <- <-. split; intros c c' Hc; cbn in Hc; lia.
    - assert (m = 0) by lia. subst m. destruct (ex_svd1 N M) as ((U, v), V). intros m' n' E. rewrite S in E. injection E as <- <-. split; intros c c' Hc; cbn in Hc; lia.
  Qed.

  (** Two spins of different quantities: each sector is one element. *)
  Lemma carries1 l x c : carries (G := z_group) ([1], [l]) x c -> x = 0 /\ c = l.
  Proof. intros (b & o & (H1 & H2 & ->) & <-). cbn in H1. assert (b = 0) by lia. subst. cbn in *. split; [lia|reflexivity]. Qed.
  Lemma carries2 l l' x c : carries (G := z_group) ([1; 1], [l; l']) x c -> (x = 0 /\ c = l) \/ (x = 1 /\ c = l').
  Proof. intros (b & o & (H1 & H2 & ->) & <-). cbn in H1. assert (C : b = 0 \/ b = 1) by lia. destruct C as [-> | ->]; cbn in *; [left|right]; split; (lia || reflexivity). Qed.
  Lemma len2 A (l : list A) : length l = 2 -> exists a b, l = [a; b].
  Proof. destruct l as [|a [|b [|]]]; try discriminate. eauto. Qed.
  Ltac qcan Q := repeat (first [apply (qop_cancel_l z_group) in Q|apply (qop_cancel_r z_group) in Q]); (exact Q || (symmetry; exact Q)).
  Lemma q_ne (a b : z_group) : proj1_sig a <> proj1_sig b -> a <> b.
  Proof. intros H ->. auto. Qed.
  Lemma cut_l (L L' : leg) l l1 l2 i i' c : (L = ([1], [l]) /\ L' = ([1; 1], [l1; l2])) \/ (L = ([1; 1], [l1; l2]) /\ L' = ([1], [l])) -> l1 <> l2 ->
    index_carries [L; L'] i c -> index_carries [L; L'] i' c -> i = i'.
  Proof.
    intros HL NE (Hi & cs & Hc & H & Q) (Hi' & cs' & Hc' & H' & Q'). cbn [length] in Hi, Hc, Hi', Hc'.
    apply len2 in Hi as (x & y & ->). apply len2 in Hc as (c0 & c1 & ->). apply len2 in Hi' as (x' & y' & ->). apply len2 in Hc' as (c0' & c1' & ->).
    pose proof (H 0 ltac:(cbn; lia)) as A0. pose proof (H 1 ltac:(cbn; lia)) as A1. pose proof (H' 0 ltac:(cbn; lia)) as B0. pose proof (H' 1 ltac:(cbn; lia)) as B1. cbn [nth] in A0, A1, B0, B1.
    rewrite <- Q' in Q. unfold qprod in Q. cbn [fold_right] in Q.
    destruct HL as [(-> & ->)|(-> & ->)].
    - apply carries1 in A0 as (-> & ->), B0 as (-> & ->). apply carries2 in A1 as [(-> & ->)|(-> & ->)], B1 as [(-> & ->)|(-> & ->)]; try reflexivity; exfalso; apply NE; qcan Q.
    - apply carries1 in A1 as (-> & ->), B1 as (-> & ->). apply carries2 in A0 as [(-> & ->)|(-> & ->)], B0 as [(-> & ->)|(-> & ->)]; try reflexivity; exfalso; apply NE; qcan Q.
  Qed.
  Lemma small_sector (U : bt) DU M : tl U = [dual bond; spin; spin; bond] -> sector_matrix 2 U DU M -> exists m n, dsh M = [m; n] /\ m <= 1 /\ n <= 1.
  Proof.
    intros TU (m & n & f & g & c & c' & SM & _ & HF & HG & IF & IG & _). rewrite TU in HF, HG. cbn [firstn skipn] in HF, HG. exists m, n. split; [exact SM|]. split.
    - destruct (le_lt_dec m 1) as [H|H]; [exact H|]. exfalso. assert (0 = 1); [|discriminate]. apply IF; [lia|lia|]. eapply (@cut_l (dual bond) spin); [left; split; reflexivity|apply q_ne; cbn; discriminate|apply HF; lia|apply HF; lia].
    - destruct (le_lt_dec n 1) as [H|H]; [exact H|]. exfalso. assert (0 = 1); [|discriminate]. apply IG; [lia|lia|]. eapply (@cut_l spin bond); [right; split; reflexivity|apply q_ne; cbn; discriminate|apply HG; lia|apply HG; lia].
  Qed.
  Lemma sorted_unique V (l : list (list nat * V)) b v v' : sorted lexb l -> In (b, v) l -> In (b, v') l -> v = v'.
  Proof. intros S H H'. apply (In_assoc key_order_idx) in H, H'; auto. congruence. Qed.
  Lemma one_block (X : bt) (L L' k : leg) l l1 l2 : (L = ([1], [l]) /\ L' = ([1; 1], [l1; l2])) \/ (L = ([1; 1], [l1; l2]) /\ L' = ([1], [l])) -> l1 <> l2 ->
    valid X -> tl X = [L; L'; k] -> forall e e', In e (b_blocks X) -> In e' (b_blocks X) -> section_of e = section_of e' -> e = e'.
  Proof.
    intros HL NE VX TX (b, t) (b', t') He He' S. unfold section_of in S. cbn [fst] in S.
    destruct (blegs_split (proj1 VX) TX) as (LX & QX). cbn in LX, QX.
    destruct VX as (MX & BX & SX). destruct (BX b t He) as ((R1 & R2) & _). destruct (BX b' t' He') as ((R1' & R2') & _). rewrite <- (legs_lens MX), LX in R1, R1'. rewrite QX in R2, R2'. rewrite <- R2' in R2. clear R2'.
    assert (EB : b = b').
    { destruct b as [|x [|y [|z [|]]]]; try (cbn in R1; rewrite ?andb_false_r in R1; discriminate). destruct b' as [|x' [|y' [|z' [|]]]]; try (cbn in R1'; rewrite ?andb_false_r in R1'; discriminate).
      cbn in S. subst z'. cbn in R1, R1'. rewrite !andb_true_iff, !Nat.ltb_lt in R1, R1'. destruct R1 as (R1 & R3 & _), R1' as (R1' & R3' & _).
      destruct HL as [(-> & ->)|(-> & ->)]; cbn in R1, R3, R1', R3'.
      - assert (x = 0) by lia. assert (x' = 0) by lia. subst. assert (C : y = 0 \/ y = 1) by lia. assert (C' : y' = 0 \/ y' = 1) by lia. destruct C as [-> | ->], C' as [-> | ->]; try reflexivity; exfalso; apply NE; unfold qprod in R2; cbn [pick nth fst snd fold_right] in R2; qcan R2.
      - assert (y = 0) by lia. assert (y' = 0) by lia. subst. assert (C : x = 0 \/ x = 1) by lia. assert (C' : x' = 0 \/ x' = 1) by lia. destruct C as [-> | ->], C' as [-> | ->]; try reflexivity; exfalso; apply NE; unfold qprod in R2; cbn [pick nth fst snd fold_right] in R2; qcan R2. }
    subst b'. f_equal. exact (sorted_unique b _ _ SX He He').
  Qed.
  Lemma x_tidy (U u v w : bt) DU z : den U DU -> tl U = [dual bond; spin; spin; bond] -> sprod sh (dv DU) (dv DU) = ro -> svd_split (ex_svd1 N) U 2 = Ok (u, v, w) -> tidy n_gtb v z u /\ tidy n_gtb v z w.
  Proof.
    intros (VU & FU & _) TU NU ES.
    assert (LU : b_rank U = 4) by (rewrite <- (blegs_length (proj1 VU)), TU; reflexivity).
    destruct (blegs_split (proj1 VU) TU) as (LX & QX). cbn in LX, QX.
    assert (HN : nonempty U) by (intros l Hl; rewrite LX in Hl; cbn in Hl; destruct Hl as [<-|[<-|[<-|[<-|[]]]]]; cbn; lia).
    assert (HB : b_blocks U <> []).
    { intros EB. apply (n_one N). rewrite <- NU. apply sumf_zero. intros i Hi. apply idxs_In in Hi. assert (Z : dv DU i = rz); [|rewrite Z; ring].
      destruct FU as (SU & FU). rewrite LX in SU. assert (Hi' : in_range (tots (legs U)) i = true) by (rewrite LX; exact Hi). destruct (unplace_spec _ _ Hi') as (H1 & H2 & H3). rewrite <- H3, FU; [|rewrite <- (legs_lens (proj1 VU)); exact H1|exact H2]. unfold bentry. rewrite EB. reflexivity. }
    destruct (@svd_split_ok z_group N (ex_svd1 N) U DU 2 VU HN) as (u' & v' & w' & k & E & DC & _); auto.
    { lia. }
    { intros M (m & n & _ & _ & _ & _ & SM & _). apply (proj1 (svd1_ok N)). eauto. }
    rewrite ES in E. injection E as <- <- <-. destruct DC as (Vu & _ & Vw & _ & _ & _ & _ & _ & _ & Bu & _ & Bw & _). rewrite TU in Bu, Bw. cbn [firstn skipn app map] in Bu, Bw. split; apply tidy_single.
    - eapply (@one_block u (dual bond) spin); [left; split; reflexivity|apply q_ne; cbn; discriminate|exact Vu|exact Bu].
    - eapply (@one_block w (dual spin) (dual bond)); [right; split; reflexivity|apply q_ne; cbn; discriminate|exact Vw|exact Bw].
  Qed.
End Ex.

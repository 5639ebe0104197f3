(** Two spins with exchange, total spin conserved: values for C79. *)
From Verif Require Import Base Quantity QuantityProofs FlatMap SpecFlatMap FlatMapProofs FlatMapThms Ring Index SpecIndex IndexProofs Dense BTensor SpecBTensor LegsProofs BTensorProofs BTensorThms
  BTensorArith SpecArith ArithProofs ArithThms Tensordot SpecTensordot Bcast SpecBcast BcastMain View Chain SpecChain ChainProofs ChainInst
  BcastProofs BcastThms ModelsBlockProofs Num Eig2 SpecEig2 Eig2Proofs Lanczos SpecLanczos LanczosProofs LanczosEx BLanczos SpecBLanczos BLanczosProofs BLanczosThms BTensorEx.
Set Implicit Arguments.

Lemma update_steps (G : abgroup) (N : numeric) imax (eps : N) (s H L E psi a0 a1 b Ee o n os np U : btensor G N) :
  b_lanczos imax eps s H L E = Ok (psi, a0, a1, b) -> b_eig a0 a1 b = Ok (Ee, o, n) -> broadcast_operation rmul o s = Ok os -> broadcast_operation rmul n psi = Ok np -> b_plus os np = Ok U ->
  b_update imax eps s H L E = Ok (Ee, U).
Proof.
  intros E1 E2 E3 E4 E5. unfold b_update, two_sites_update. unfold b_lanczos in E1. rewrite E1. cbn [rbind]. rewrite E2. cbn [rbind]. unfold b_mul. rewrite E3. cbn [rbind]. rewrite E4. cbn [rbind]. rewrite E5. reflexivity.
Qed.

Section Ex.
  Variable N : numeric.
  Add Ring Rr : (ring_th N).
  Notation bt := (btensor z_group N).
  Notation d := (dense N).
  Notation den := (@stored z_group N 100).
  Notation tl := (@blegs z_group N).
  Notation dual := (@bdual z_group).
  Notation "0" := (rz : N) : R_scope. Notation "1" := (ro : N) : R_scope.
  Definition u (n : nat) (v : N) : d := mkD (repeat 1 n) (fun _ => v).
  Definition bond : list nat * list z_group := ([1], [q 0]).
  Definition spin : list nat * list z_group := ([1; 1], [q 1; q (-1)]).
  Definition xe : bt := @mkB z_group N (q 0) 3 [1; 1; 1] [1; 1; 1] [q 0; q 0; q 0] [([0; 0; 0], u 3 ro)].
  Definition xh : bt := @mkB z_group N (q 0) 6 [1; 2; 2; 1; 2; 2] [1; 1; 1; 1; 1; 1; 1; 1; 1; 1] [q 0; q 1; q (-1); q 1; q (-1); q 0; q (-1); q 1; q (-1); q 1]
    [([0; 0; 1; 0; 0; 1], u 6 (ropp ro)); ([0; 0; 1; 0; 1; 0], u 6 (two N)); ([0; 1; 0; 0; 0; 1], u 6 (two N)); ([0; 1; 0; 0; 1; 0], u 6 (ropp ro))].
  (** One spin up, the second ([a] is 0) or the first ([a] is 1) down. *)
  Definition xs (a : nat) : bt := @mkB z_group N (q 0) 4 [1; 2; 2; 1] [1; 1; 1; 1; 1; 1] [q 0; q 1; q (-1); q 1; q (-1); q 0] [([0; a; 1 - a; 0], u 4 ro)].
  Definition dh : d := mkD [1; 2; 2; 1; 2; 2] (fun i => if (nth 1 i 0 =? nth 2 i 0) || (nth 4 i 0 =? nth 5 i 0) then rz else if nth 1 i 0 =? nth 4 i 0 then ropp ro else two N).
  Definition ds (a : nat) : d := mkD [1; 2; 2; 1] (fun i => if (nth 1 i 0 =? a) && (nth 2 i 0 =? 1 - a) then ro else rz).
  Notation de := (ex_env N).
  Notation sh := [1; 2; 2; 1].
  Notation M := (heff de dh de).

  Ltac red_ex := cbn; cbv beta iota delta [Nat.eqb andb orb negb].
  Ltac keys Hb := apply idxs_In in Hb; cbn in Hb; repeat (destruct Hb as [<-|Hb]; [|]); [..|contradiction].
  Lemma valid_of (T : bt) : meta_ok T -> (forall k t, In (k, t) (b_blocks T) -> in_range (b_sbd T) k = true /\ proj1_sig (qprod z_group (pick (qe z_group) (qlegs T) k)) = proj1_sig (b_rule T) /\ dsh t = pick 0 (legs T) k) ->
    sorted lexb (b_blocks T) -> valid T.
  Proof. intros HM HB HS. split; [exact HM|]. split; [|exact HS]. intros k t Hk. apply HB in Hk as (K1 & K2 & K3). split; [split; [exact K1|apply sig_eq; exact K2]|exact K3]. Qed.
  Lemma den_xe : den xe de.
  Proof.
    split; [|split].
    - apply valid_of; [repeat split| |repeat constructor]. intros k t [[= <- <-]|[]]. repeat split.
    - split; [reflexivity|]. intros b o Hb Ho. change (b_sbd xe) with [1; 1; 1] in Hb. keys Hb. cbn in Ho. change (in_range [1; 1; 1] o = true) in Ho. keys Ho. reflexivity.
    - intros s [<-|[<-|[<-|[]]]]; cbn; lia.
  Qed.
  Lemma den_xh : den xh dh.
  Proof.
    split; [|split].
    - apply valid_of; [repeat split| |repeat constructor]. intros k t [[= <- <-]|[[= <- <-]|[[= <- <-]|[[= <- <-]|[]]]]]; repeat split.
    - split; [reflexivity|]. intros b o Hb Ho. change (b_sbd xh) with [1; 2; 2; 1; 2; 2] in Hb. keys Hb; change (in_range [1; 1; 1; 1; 1; 1] o = true) in Ho; keys Ho; reflexivity.
    - intros s H. cbn in H. intuition lia.
  Qed.
  Lemma den_xs a : a < 2 -> den (xs a) (ds a).
  Proof.
    intros Ha. assert (C : a = 0 \/ a = 1) by lia. destruct C as [-> | ->]; (split; [|split];
    [apply valid_of; [repeat split| |repeat constructor]; intros k t [[= <- <-]|[]]; repeat split
    |split; [reflexivity|]; intros b o Hb Ho; change (in_range [1; 2; 2; 1] b = true) in Hb; keys Hb; change (in_range [1; 1; 1; 1] o = true) in Ho; keys Ho; reflexivity
    |intros s H; cbn in H; intuition lia]).
  Qed.
  Lemma xs_fits a : bfits xe xh xe (xs a).
  Proof.
    exists bond, spin, spin, bond, bond, bond. split; [|split; [|split]]; unfold blegs, bdual; cbn; repeat f_equal; apply sig_eq; reflexivity.
  Qed.
  Lemma x_conserving : conserving xe xh xe.
  Proof. unfold conserving. apply sig_eq. reflexivity. Qed.
  Lemma h_val i j : M i j = dv dh [0; nth 1 i 0; nth 2 i 0; 0; nth 1 j 0; nth 2 j 0].
  Proof. unfold heff. cbn [ex_env dsh dv nth seq]. rewrite !sumf_cons, !sumf_nil. cbn [dv nth]. ring. Qed.
  Lemma two_real : rconj (two N) = two N. Proof. unfold two. rewrite rconj_add, conj1. reflexivity. Qed.
  Lemma h_hermitian : hermitian_kernel sh M.
  Proof.
    intros i j Hi Hj. rewrite !h_val. keys Hi; keys Hj; red_ex; rewrite ?conj0, ?conj_opp, ?conj1, ?two_real; reflexivity.
  Qed.
  Lemma s_norm a : a < 2 -> sprod sh (dv (ds a)) (dv (ds a)) = ro.
  Proof. intros Ha. assert (C : a = 0 \/ a = 1) by lia. destruct C as [-> | ->]; unfold sprod; red_ex; rewrite conj1, conj0; ring. Qed.
  Ltac ev := cbn [idxs seq flat_map map app]; rewrite !sumf_cons, !sumf_nil, ?h_val; red_ex; rewrite ?conj0, ?conj_opp, ?conj1, ?two_real.
  Lemma s_apply a i : a < 2 -> in_range sh i = true -> apply sh M (dv (ds a)) i = if nth 1 i 0 =? nth 2 i 0 then rz else if nth 1 i 0 =? a then ropp ro else two N.
  Proof. intros Ha Hi. assert (C : a = 0 \/ a = 1) by lia. unfold apply. destruct C as [-> | ->]; keys Hi; ev; ring. Qed.
  Lemma s_energy a : a < 2 -> energy sh M (dv (ds a)) = ropp ro.
  Proof.
    intros Ha. unfold energy, sprod. cbn [idxs seq flat_map map app]. rewrite !sumf_cons, !sumf_nil, !s_apply by (auto; reflexivity).
    assert (C : a = 0 \/ a = 1) by lia. destruct C as [-> | ->]; red_ex; rewrite conj0, conj1; ring.
  Qed.

  (** Tensors with the dimensions of the state. *)
  Notation ts := (tl (xs 0)).
  Notation z4 := [0; 0; 0; 0].
  Lemma legs4 (T : bt) : valid T -> tl T = ts -> legs T = [[1]; [1; 1]; [1; 1]; [1]] /\ b_sbd T = sh.
  Proof.
    intros V E. pose proof (f_equal (map fst) E) as E1. rewrite (blegs_fst (proj1 V)) in E1. split; [exact E1|]. rewrite <- (legs_lens (proj1 V)), E1. reflexivity.
  Qed.
  Lemma form4 (T : bt) D : valid T -> tl T = ts -> dsh D = sh -> (dense_form T D <-> forall k, in_range sh k = true -> bentry T k z4 = dv D k).
  Proof.
    intros V E S. destruct (legs4 V E) as [EL ES]. split.
    - intros [_ F] k Hk. specialize (F k z4). rewrite ES, EL in F. rewrite <- F; [|exact Hk|]; clear F; keys Hk; reflexivity.
    - intros H. split; [rewrite EL; exact S|]. rewrite ES, EL. intros b o Hb Ho. assert (Ho' : o = z4) by (keys Hb; change (in_range [1; 1; 1; 1] o = true) in Ho; keys Ho; reflexivity). subst o.
      rewrite H by exact Hb. keys Hb; reflexivity.
  Qed.
  Lemma den4 (T : bt) D : valid T -> tl T = ts -> dsh D = sh -> (forall k, in_range sh k = true -> bentry T k z4 = dv D k) -> den T D.
  Proof.
    intros V E S H. split; [exact V|]. split; [apply form4; assumption|]. rewrite (proj2 (legs4 V E)). intros s Hs. cbn in Hs. intuition lia.
  Qed.
  Lemma entry4 (T : bt) D k : den T D -> tl T = ts -> in_range sh k = true -> bentry T k z4 = dv D k.
  Proof. intros HT E Hk. apply form4; auto; try apply HT. rewrite (stored_shape HT), E. reflexivity. Qed.
  Lemma shape4 (T : bt) D : den T D -> tl T = ts -> dsh D = sh.
  Proof. intros HT E. rewrite (stored_shape HT), E. reflexivity. Qed.
  Lemma ts_len : length ts = 4. Proof. reflexivity. Qed.
  Lemma xs_rule a : b_rule (xs a) = q 0. Proof. reflexivity. Qed.
  Lemma shape0 (T : bt) D : den T D -> tl T = [] -> dsh D = [].
  Proof. intros HT E. rewrite (stored_shape HT), E. reflexivity. Qed.
  Lemma has4 (T : bt) D k : den T D -> tl T = ts -> in_range sh k = true -> dv D k <> rz -> has T k.
  Proof. intros HT E Hk Z A. apply Z. rewrite <- (@entry4 T D k HT E Hk). unfold bentry. rewrite A. reflexivity. Qed.
  Lemma two_nz : two N <> rz. Proof. apply two_neq. Qed.
  Lemma opp_nz : ropp ro <> rz :> N. Proof. intros Q. apply (n_one N). transitivity (ropp (ropp ro) : N); [ring|rewrite Q; ring]. Qed.
  Lemma ts_a a : tl (xs a) = ts. Proof. reflexivity. Qed.
  Lemma x_fits : fits de dh de 1 2 2 1. Proof. exists 1, 1. repeat split. Qed.
  (** The Hamiltonian applied to the state. *)
  Lemma x_h2s a : a < 2 -> exists P DP, hamil2site_times_state (tensordot 100) (xs a) xh xe xe = Ok P /\ hamil2site_times_state t_tdot (ds a) dh de de = Ok DP /\ den P DP /\ tl P = ts /\ b_rule P = q 0 /\
    (forall i, in_range sh i = true -> dv DP i = apply sh M (dv (ds a)) i).
  Proof.
    intros Ha. destruct (xs_fits a) as (x & p & p' & x' & o & o' & TL & Ts & TH & TE).
    destruct (@sim_h2s z_group N 100 xe xh xe de dh de x p p' x' o o' den_xe den_xh den_xe TL TH TE x_conserving (xs a) (ds a) (den_xs Ha) Ts) as (P & DP & EP & FP & HP & TP & RP & KP). exists P, DP.
    destruct (h2s_ok x_fits (ds a) eq_refl) as (C & EC & _ & VC). rewrite FP in EC. injection EC as <-.
    split; [exact EP|]. split; [exact FP|]. split; [exact HP|]. split; [rewrite TP, <- Ts; reflexivity|]. split; [exact RP|]. exact VC.
  Qed.
  Lemma x_reached P : hamil2site_times_state (tensordot 100) (xs 0) xh xe xe = Ok P -> reached P (xs 0).
  Proof.
    intros EP. destruct (@x_h2s 0) as (P' & DP & EP' & _ & HP & TP & RP & VP); [lia|]. rewrite EP in EP'. injection EP' as <-.
    assert (S0 : has (xs 0) [0; 0; 1; 0]) by discriminate. split.
    - exists [0; 0; 1; 0]. split; [|exact S0]. apply (@has4 P DP [0; 0; 1; 0] HP TP eq_refl). rewrite VP by reflexivity. rewrite s_apply by (auto; lia). apply opp_nz.
    - intros k Hk. exists [0; 0; 1; 0]. split; [exact S0|]. pose proof HP as (V & _). destruct (legs4 V TP) as [_ ES]. unfold has in Hk. destruct (assoc leqb k (b_blocks P)) as [t|] eqn:A; [|congruence].
      destruct (valid_assoc _ V A) as [[K1 K2] _]. rewrite ES in K1. assert (EQ : qlegs P = qlegs (xs 0)).
      { pose proof (f_equal (map snd) TP) as E1. unfold blegs in E1. revert E1. generalize (legs4 V TP). intros [-> _]. change (legs (xs 0)) with [[1]; [1; 1]; [1; 1]; [1]].
        pose proof (qlegs_length (proj1 V)) as Q. rewrite <- (proj1 (proj1 V)), ES in Q. destruct (qlegs P) as [|? [|? [|? [|? [|? ?]]]]]; try discriminate. cbn. intros E1. exact E1. }
      rewrite EQ, RP in K2. keys K1; try reflexivity. apply (f_equal (@proj1_sig _ _)) in K2. discriminate K2.
  Qed.

  (** What is left of the Hamiltonian applied to [xs 1] after the subtraction: the sign of the first block is wrong. *)
  Definition dp (v : N) : d := mkD sh (fun i => if (nth 1 i 0 =? 0) && (nth 2 i 0 =? 1) then v else rz).
  Lemma dp_apply v i : in_range sh i = true -> apply sh M (dv (dp v)) i = if nth 1 i 0 =? nth 2 i 0 then rz else if nth 1 i 0 =? 0 then ropp v else rmul (two N) v.
  Proof. intros Hi. unfold apply. keys Hi; ev; ring. Qed.
  Lemma dp_norm v : sprod sh (dv (dp v)) (dv (dp v)) = rmul (rconj v) v.
  Proof. unfold sprod. red_ex. rewrite conj0. ring. Qed.
  Lemma sprod_ext (v w v' w' : list nat -> N) : (forall i, in_range sh i = true -> v i = v' i) -> (forall i, in_range sh i = true -> w i = w' i) -> sprod sh v w = sprod sh v' w'.
  Proof. intros H1 H2. apply sumf_ext. intros i Hi. apply idxs_In in Hi. rewrite H1, H2 by exact Hi. reflexivity. Qed.
  Lemma apply_ext (v v' : list nat -> N) i : (forall i, in_range sh i = true -> v i = v' i) -> apply sh M v i = apply sh M v' i.
  Proof. intros H1. apply sumf_ext. intros j Hj. apply idxs_In in Hj. rewrite H1 by exact Hj. reflexivity. Qed.
  Lemma energy_ext (v v' : list nat -> N) : (forall i, in_range sh i = true -> v i = v' i) -> energy sh M v = energy sh M v'.
  Proof. intros H1. apply sprod_ext; [exact H1|]. intros i _. apply apply_ext, H1. Qed.
  Lemma minus_div : ndiv N (ropp (two N)) (two N) = ropp ro.
  Proof. unfold ndiv. transitivity (ropp (rmul (two N) (n_inv N (two N)))); [ring|]. rewrite (n_inv_ok N two_nz). reflexivity. Qed.
  Lemma real1 : rconj (ropp ro) = ropp ro :> N. Proof. rewrite conj_opp, conj1. reflexivity. Qed.
  Lemma ground_3 E o n : ground2 (ropp ro) (ropp ro) (two N) E o n -> E = ropp (radd ro (two N)) /\ radd (rmul (rconj o) n) (rmul (rconj n) o) = ropp ro.
  Proof.
    intros (G1 & G2 & G3 & G4). rewrite two_real in G2. unfold norm2 in G1.
    assert (F : radd (rmul (rconj o) n) (rmul (rconj n) o) = ropp ro -> E = ropp (radd ro (two N))).
    { intros F. transitivity (rmul E (radd (rmul (rconj o) o) (rmul (rconj n) n))); [rewrite G1; ring|].
      transitivity (radd (rmul (rconj o) (rmul E o)) (rmul (rconj n) (rmul E n))); [ring|]. rewrite <- G2, <- G3.
      transitivity (radd (ropp (radd (rmul (rconj o) o) (rmul (rconj n) n))) (rmul (two N) (radd (rmul (rconj o) n) (rmul (rconj n) o)))); [ring|]. rewrite G1, F. unfold two. ring. }
    assert (X : radd (rmul (rconj o) n) (rmul (rconj n) o) = ropp ro); [|auto]. clear F.
    assert (S : rmul (rsub E ro) (radd o n) = rz).
    { transitivity (rsub (radd (rmul E o) (rmul E n)) (radd o n)); [unfold rsub; ring|]. rewrite <- G2, <- G3. unfold rsub, two. ring. }
    specialize (G4 ro (ropp ro)). unfold norm2, form2 in G4. rewrite conj1, real1, two_real in G4.
    assert (Z : rsub E ro <> rz).
    { intros Q. assert (EE : E = ro) by (transitivity (radd (rsub E ro) ro); [unfold rsub; ring|rewrite Q; ring]). rewrite EE in G4. unfold le in G4. rewrite n_le_sub in G4.
      assert (G5 : n_leb N rz (ropp (rmul (two N) (rmul (two N) (two N)))) = true).
      { revert G4. match goal with |- n_leb N rz ?a = true -> _ => replace a with (ropp (rmul (two N) (rmul (two N) (two N)))); [auto|unfold rsub, two; ring] end. }
      apply n_anti in G5; [|repeat apply n_nn_mul; apply nn_two]. apply mul_zero in G5 as [G5|G5]; [exact (two_nz G5)|]. apply mul_zero in G5 as [G5|G5]; exact (two_nz G5). }
    apply mul_zero in S as [S|S]; [destruct (Z S)|]. assert (n = ropp o) as -> by (transitivity (radd (radd o n) (ropp o)); [ring|rewrite S; ring]).
    rewrite conj_opp in *. rewrite <- G1. ring.
  Qed.

  Definition mix (x y : N) (i : list nat) : N := radd (rmul x (dv (ds 1) i)) (rmul y (dv (dp (ropp ro)) i)).
  Lemma mix_norm x y : sprod sh (mix x y) (mix x y) = radd (rmul (rconj x) x) (rmul (rconj y) y).
  Proof. unfold sprod, mix. cbn [idxs seq flat_map map app]. rewrite !sumf_cons, !sumf_nil. red_ex. rewrite !rconj_add, !rconj_mul, conj0, conj1, real1. ring. Qed.
  Lemma mix_apply x y i : in_range sh i = true -> apply sh M (mix x y) i = radd (rmul x (apply sh M (dv (ds 1)) i)) (rmul y (apply sh M (dv (dp (ropp ro))) i)).
  Proof. intros Hi. unfold apply, mix. rewrite <- !sumf_mul_l, <- sumf_add. apply sumf_ext. intros j _. ring. Qed.
  Lemma mix_energy x y : energy sh M (mix x y) = radd (ropp (radd (rmul (rconj x) x) (rmul (rconj y) y))) (ropp (rmul (two N) (radd (rmul (rconj x) y) (rmul (rconj y) x)))).
  Proof.
    unfold energy, sprod. cbn [idxs seq flat_map map app]. rewrite !sumf_cons, !sumf_nil, !mix_apply, !dp_apply, !s_apply by (reflexivity || lia).
    unfold mix. red_ex. rewrite !rconj_add, !rconj_mul, conj0, conj1, real1. ring.
  Qed.
  Theorem triplet (eps : N) : le N rz eps -> le N eps (two N) ->
    exists Et U DEt DU, b_update 100 eps (xs 1) xh xe xe = Ok (Et, U) /\ den Et DEt /\ den U DU /\ dv DEt [] = ropp (radd ro (two N)) /\ sprod sh (dv DU) (dv DU) = ro /\ energy sh M (dv DU) = ro.
  Proof.
    intros P0 P2. assert (H1 : 1 < 2) by lia. pose proof (den_xs H1) as Hs. destruct (xs_fits 1) as (x & p & p' & x' & o & o' & TL & Ts & TH & TE).
    pose proof (@sim_h2s z_group N 100 xe xh xe de dh de x p p' x' o o' den_xe den_xh den_xe TL TH TE x_conserving) as H2S.
    destruct (x_h2s H1) as (P & DP & EP & FP & HP & TP & RP & VP).
    destruct (@sim_conj z_group N 100 _ _ Hs) as (Hcs & Tcs & Rcs & Kcs).
    assert (KP : has P [0; 1; 0; 0]) by (apply (@has4 P DP [0; 1; 0; 0] HP TP eq_refl); rewrite VP by reflexivity; rewrite s_apply by (auto; lia); apply opp_nz).
    pose proof ts_len as LT. pose proof (ts_a 1) as TA. pose proof (xs_rule 1) as RA.
    destruct (@sim_full z_group N 100 P (conj (xs 1)) DP (t_conj (ds 1)) HP Hcs) as (a0 & D0 & E0 & F0 & S0).
    { rewrite TP. exact LT. } { rewrite Tcs, TP, TA. reflexivity. } { rewrite Rcs, RP, RA. reflexivity. } { exists [0; 1; 0; 0]. split; [exact KP|]. apply Kcs. discriminate. }
    assert (V0 : dv D0 [] = ropp ro).
    { destruct (@tdot_sprod N 1 2 2 1 DP (ds 1)) as (s0 & Es0 & _ & Vs0); [exact (shape4 HP TP)|reflexivity|]. rewrite F0 in Es0. injection Es0 as <-. rewrite Vs0.
      rewrite <- (s_energy H1). apply sprod_ext; [reflexivity|exact VP]. }
    pose proof S0 as (H0 & T0 & R0 & Q0).
    destruct (@sim_scalar_r z_group N 100 rmul (xs 1) a0 (ds 1) D0 Hs H0 T0 R0) as (sa & Dsa & Esa & Fsa & Hsa & Tsa & Rsa & Ksa); [intros; ring|left; exact Q0|].
    destruct (@zip_scalar N 1 2 2 1 false rmul (ds 1) D0 eq_refl) as (X & EX & _ & VX); [exact (shape0 H0 T0)|]. rewrite Fsa in EX. injection EX as <-.
    pose proof HP as (VaP & _). pose proof Hsa as (Vsa & _).
    assert (MM : same_meta P sa) by (apply meta_eq; [apply VaP|apply Vsa|rewrite TP, Tsa, TA; reflexivity|rewrite RP, Rsa, RA; reflexivity]).
    destruct (add_exact (ropp ro) VaP Vsa MM) as (psi & Epsi & Mpsi & Vpsi & Kpsi & Npsi).
    assert (Tpsi : tl psi = ts) by (rewrite <- (@meta_tl z_group N _ _ Mpsi); exact TP).
    assert (SA : forall k, has sa k -> k = [0; 1; 0; 0]).
    { intros k Hk. apply Ksa in Hk as [Hk _]. pose proof (@has_range z_group N (xs 1) k (proj1 Hs) Hk) as Rk. change (in_range sh k = true) in Rk. keys Rk; try reflexivity; destruct Hk; reflexivity. }
    assert (Hpsi : den psi (dp (ropp (two N)))).
    { apply den4; [exact Vpsi|exact Tpsi|reflexivity|]. intros k Hk. rewrite Npsi. rewrite (@entry4 P DP k HP TP Hk), (@entry4 sa Dsa k Hsa (eq_trans Tsa TA) Hk), VP, VX, V0, s_apply by (auto; lia).
      destruct (assoc leqb k (b_blocks sa)) as [t|] eqn:A.
      - assert (k = [0; 1; 0; 0]) as -> by (apply SA; unfold has; congruence). red_ex. ring.
      - destruct (leading sa k) eqn:LE.
        + keys Hk; red_ex; try ring. exfalso. assert (Q : has sa [0; 1; 0; 0]) by (apply Ksa; split; [discriminate|exact Q0]). apply Q, A.
        + keys Hk; red_ex; try ring. exfalso. revert LE. unfold leading. rewrite <- not_true_iff_false, forallb_forall. intros LE. apply LE. intros [k t] Hin.
          apply in_assoc in Hin; [|apply Vsa]. apply SA in Hin. cbn [fst]. rewrite Hin. reflexivity. }
    assert (Rpsi : b_rule psi = q 0) by (destruct Mpsi as [<- _]; exact RP).
    destruct (@sim_conj z_group N 100 _ _ Hpsi) as (Hcp & Tcp & Rcp & Kcp).
    assert (Kn : has psi [0; 0; 1; 0]).
    { apply (@has4 psi _ [0; 0; 1; 0] Hpsi Tpsi eq_refl). red_ex. intros Q. apply two_nz. transitivity (ropp (ropp (two N)) : N); [ring|rewrite Q; ring]. }
    destruct (@sim_full z_group N 100 psi (conj psi) _ _ Hpsi Hcp) as (bb & Dbb & Ebb & Fbb & Sbb).
    { rewrite Tpsi. exact LT. } { exact Tcp. } { exact Rcp. } { exists [0; 0; 1; 0]. split; [exact Kn|]. apply Kcp, Kn. }
    assert (Vbb : dv Dbb [] = rmul (two N) (two N)).
    { destruct (@tdot_sprod N 1 2 2 1 (dp (ropp (two N))) (dp (ropp (two N))) eq_refl eq_refl) as (s0 & Es0 & _ & Vs0). rewrite Fbb in Es0. injection Es0 as <-. rewrite Vs0, dp_norm, conj_opp, two_real. ring. }
    assert (Sb : @sc z_group N 100 (bt_elementwise (n_sqrt N) bb) (d_map (n_sqrt N) Dbb)).
    { destruct Sbb as (Q1 & Q2 & Q3 & Q4). destruct (@sim_map z_group N 100 (n_sqrt N) bb Dbb Q1 (sqrt_0 N)) as (M1 & M2 & M3). split; [exact M1|]. split; [rewrite M2; exact Q2|]. split; [rewrite M3; exact Q3|]. apply has_map, Q4. }
    set (b := bt_elementwise (n_sqrt N) bb) in *. set (Db := d_map (n_sqrt N) Dbb) in *.
    assert (Vb : dv Db [] = two N).
    { unfold Db. cbn [d_map dv]. rewrite Vbb. apply root_unique; [apply n_sqrt_nn, n_nn_mul; apply nn_two|apply nn_two|]. apply n_sqrt_sq, n_nn_mul; apply nn_two. }
    pose proof Sb as (Hb & Tb & Rb & Pb). assert (SD : dsh Db = []) by exact (shape0 Hb Tb).
    assert (EL : t_large eps Db = Ok true).
    { unfold t_large, t_item. cbn [d_map dsh dv]. rewrite SD. cbn [map]. rewrite Vb. rewrite nabs_nn by apply nn_two. change (prod_list [] =? 1) with true. cbn [rbind]. f_equal. exact P2. }
    destruct (@sim_div z_group N 100 psi b _ Db Hpsi Hb Tb Rb Pb) as (psi2 & Dp2 & E2 & F2 & H2 & T2 & R2 & K3).
    destruct (@zip_scalar N 1 2 2 1 true (ndiv N) (dp (ropp (two N))) Db eq_refl SD) as (Y & EY & _ & VY). rewrite F2 in EY. injection EY as <-.
    assert (V2 : forall i, in_range sh i = true -> dv Dp2 i = dv (dp (ropp ro)) i).
    { intros i Hi. rewrite VY, Vb by exact Hi. keys Hi; red_ex; rewrite ?minus_div; try reflexivity; unfold ndiv; ring. }
    rewrite Tpsi in T2. rewrite Rpsi in R2.
    destruct (H2S psi2 Dp2 H2) as (hp & Dhp & Ehp & Fhp & Hhp & Thp & Rhp & _); [rewrite T2, <- Ts, TA; reflexivity|].
    destruct (h2s_ok x_fits Dp2) as (Z & EZ & _ & VZ); [exact (shape4 H2 T2)|]. rewrite Fhp in EZ. injection EZ as <-.
    assert (Vhp : forall i, in_range sh i = true -> dv Dhp i = apply sh M (dv (dp (ropp ro))) i).
    { intros i Hi. rewrite VZ by exact Hi. apply apply_ext. exact V2. }
    assert (Thp' : tl hp = ts) by (rewrite Thp, <- Ts; exact TA).
    destruct (@sim_conj z_group N 100 _ _ H2) as (Hc2 & Tc2 & Rc2 & Kc2).
    destruct (@sim_full z_group N 100 (conj psi2) hp _ _ Hc2 Hhp) as (a1 & D1 & E1 & F1 & S1).
    { rewrite Tc2, map_length, T2. exact LT. } { rewrite Tc2, dual_tl, T2, Thp'. reflexivity. } { rewrite Rc2, qinv_inv, Rhp. reflexivity. }
    { exists [0; 0; 1; 0]. split; [apply Kc2, K3, Kn|]. apply (@has4 hp Dhp [0; 0; 1; 0] Hhp Thp' eq_refl). rewrite Vhp, dp_apply by reflexivity. red_ex. intros Q. apply (n_one N). rewrite <- Q. ring. }
    assert (V1 : dv D1 [] = ropp ro).
    { destruct (@tdot_sprod' N 1 2 2 1 Dp2 Dhp) as (s0 & Es0 & _ & Vs0); [exact (shape4 H2 T2)|exact (shape4 Hhp Thp')|]. rewrite F1 in Es0. injection Es0 as <-. rewrite Vs0.
      rewrite (@sprod_ext _ _ _ _ V2 Vhp). unfold sprod. cbn [idxs seq flat_map map app]. rewrite !sumf_cons, !sumf_nil, !dp_apply by reflexivity. red_ex. rewrite conj0, real1. ring. }
    assert (ELB : b_lanczos 100 eps (xs 1) xh xe xe = Ok (psi2, a0, a1, b)).
    { unfold b_lanczos, one_step_lanczos. rewrite EP. cbn [rbind]. rewrite E0. cbn [rbind]. unfold b_mul. rewrite Esa. cbn [rbind]. unfold b_minus_. rewrite Epsi. cbn [rbind]. rewrite Ebb. cbn [rbind].
      fold b. rewrite (@sim_large z_group N 100 eps b Db Sb), EL. cbn [rbind]. rewrite E2. cbn [rbind]. rewrite Ehp. cbn [rbind]. rewrite E1. reflexivity. }
    destruct (@eig2x2_ok N (ropp ro) (ropp ro) (two N) real1 real1) as (Ev & ov & nv & EE & GG & _). pose proof (ground_3 GG) as [G3 G4].
    pose proof (@sim_eig z_group N 100 _ _ _ _ _ _ S0 S1 Sb) as Q. destruct (@x_of_sc z_group N 100 _ _ S0) as [_ I0]. destruct (@x_of_sc z_group N 100 _ _ S1) as [_ I1]. destruct (@x_of_sc z_group N 100 _ _ Sb) as [_ Ib].
    unfold t_eig in Q. rewrite I0, I1, Ib, V0, V1, Vb in Q. cbn [rbind] in Q. rewrite EE in Q. cbn [rbind] in Q. destruct Q as (Ee & oc & nc & Q & SE & So & Sn).
    destruct So as (Ho & To & Ro & Po). destruct Sn as (Hn & Tn & Rn & Pn). destruct SE as (HEe & TEe & _).
    destruct (@sim_scalar_l z_group N 100 rmul (xs 1) oc (ds 1) _ Hs Ho To Ro) as (os & Dos & Eos & Fos & Hos & Tos & Ros & _); [rewrite TA, LT; lia|intros; ring|intros; ring|].
    destruct (@sim_scalar_l z_group N 100 rmul psi2 nc Dp2 _ H2 Hn Tn Rn) as (np & Dnp & Enp & Fnp & Hnp & Tnp & Rnp & _); [rewrite T2, LT; lia|intros; ring|intros; ring|].
    destruct (@sim_plus z_group N 100 os np Dos Dnp Hos Hnp) as (U & DU & EU & FU & HU & TU & RU & _); [rewrite Tos, Tnp, T2; exact TA|rewrite Ros, Rnp, R2; exact RA|].
    assert (Sp2 : dsh Dp2 = sh) by exact (shape4 H2 T2).
    assert (VU : forall i, in_range sh i = true -> dv DU i = mix ov nv i).
    { destruct (@scalar_zip N 1 2 2 1 rmul (ds 1) (mkD [] (fun _ => ov)) eq_refl eq_refl) as (Z1 & W1 & _ & W2). rewrite Fos in W1. injection W1 as <-.
      destruct (@scalar_zip N 1 2 2 1 rmul Dp2 (mkD [] (fun _ => nv)) Sp2 eq_refl) as (Z2 & W3 & _ & W4). rewrite Fnp in W3. injection W3 as <-.
      destruct (@LanczosProofs.zip_same N 1 2 2 1 false radd Dos Dnp) as (Z3 & W5 & _ & W6); [apply (shape4 Hos); rewrite Tos; exact TA|apply (shape4 Hnp); rewrite Tnp; exact T2|]. rewrite FU in W5. injection W5 as <-.
      intros i Hi. rewrite W6, W2, W4, V2 by exact Hi. reflexivity. }
    destruct GG as (NN & _ & _ & _). unfold norm2 in NN.
    assert (W1 : sprod sh (dv DU) (dv DU) = ro) by (rewrite (@sprod_ext _ _ _ _ VU VU), mix_norm; exact NN).
    assert (W2 : energy sh M (dv DU) = ro) by (rewrite (@energy_ext _ _ VU), mix_energy, NN, G4; unfold two; ring).
    assert (W3 : b_update 100 eps (xs 1) xh xe xe = Ok (Ee, U)).
    { eapply update_steps; [exact ELB|exact Q|exact Eos|exact Enp|exact EU]. }
    exists Ee, U, (mkD [] (fun _ => Ev)), DU. split; [exact W3|]. split; [exact HEe|]. split; [exact HU|]. split; [exact G3|]. split; [exact W1|exact W2].
  Qed.
End Ex.

(** Lemmas: the chain operator of a finite-automaton list of tensors. *)
From Verif Require Import Base Ring SpecIndex Index IndexProofs Dense BTensor BTensorArith Tensordot View Models SpecModels.
From Coq Require Import Setoid.

Section Auto.
  Context {R : ring}.
  Add Ring Rring : (ring_th R).
  Local Open Scope R_scope.
  Notation D := (dense R).
  Implicit Types W : D.

  Lemma map_seq_S {A} (f : nat -> A) n : map f (seq 0 (S n)) = f 0%nat :: map (fun j => f (S j)) (seq 0 n).
  Proof. cbn [seq map]. f_equal. rewrite <- seq_shift, map_map. reflexivity. Qed.
  Lemma sumf_seq_S (f : nat -> R) n : sumf R f (seq 0 (S n)) = f 0%nat + sumf R (fun j => f (S j)) (seq 0 n).
  Proof. cbn [seq]. rewrite sumf_cons. f_equal. rewrite <- seq_shift, sumf_map. reflexivity. Qed.
  Lemma sumf_seq_snoc (f : nat -> R) n : sumf R f (seq 0 (S n)) = sumf R f (seq 0 n) + f n.
  Proof. rewrite seq_S, sumf_app, sumf_cons, sumf_nil. cbn [Nat.add]. ring. Qed.

  Variable d K : nat.
  Variable Loc : mat R.
  Variable A B : nat -> mat R.

  (** Entries of the local tensor. *)
  Definition auto_entry (a p c q : nat) : R :=
    if (c =? 0)%nat then (if (a =? 0)%nat then delta R p q else if (a <=? K)%nat then B a p q else Loc p q)
    else if (a =? S K)%nat then (if (c <=? K)%nat then A c p q else delta R p q) else rz.
  Definition auto_tensor W : Prop :=
    dsh W = [S (S K); d; S (S K); d] /\
    forall a p c q, a < S (S K) -> p < d -> c < S (S K) -> q < d -> dv W [a; p; c; q] = auto_entry a p c q.

  Definition ham (n : nat) : chop R :=
    cadd (csum (fun i => on_site n i Loc) (seq 0 n))
         (csum (fun i => csum (fun k => on_pair n i (A k) (B k)) (seq 1 K)) (seq 0 (n - 1))).
  Definition ids (n : nat) : chop R := tensor (repeat (delta R) n).

  Lemma tensor_cons m ms p ps q qs : tensor (R := R) (m :: ms) (p :: ps) (q :: qs) = m p q * tensor ms ps qs.
  Proof. reflexivity. Qed.
  Lemma map_const {X} (f : nat -> X) x l : (forall j, f j = x) -> map f l = repeat x (length l).
  Proof. intros H. induction l; cbn; [reflexivity|]. rewrite H, IHl. reflexivity. Qed.
  Lemma on_site_0 n M p ps q qs : on_site (R := R) (S n) 0 M (p :: ps) (q :: qs) = M p q * ids n ps qs.
  Proof.
    unfold on_site. rewrite map_seq_S. change (0 =? 0)%nat with true. cbv iota. rewrite tensor_cons. f_equal.
    rewrite (map_const _ (delta R)); [|intros; reflexivity]. rewrite seq_length. reflexivity.
  Qed.
  Lemma on_site_S n i M p ps q qs : on_site (R := R) (S n) (S i) M (p :: ps) (q :: qs) = delta R p q * on_site n i M ps qs.
  Proof. unfold on_site. rewrite map_seq_S. change (0 =? S i)%nat with false. cbv iota. rewrite tensor_cons. reflexivity. Qed.
  Lemma on_pair_0 n M N p ps q qs : on_pair (R := R) (S (S n)) 0 M N (p :: ps) (q :: qs) = M p q * tensor (N :: repeat (delta R) n) ps qs.
  Proof.
    unfold on_pair. rewrite map_seq_S. change (0 =? 0)%nat with true. cbv iota. rewrite tensor_cons. f_equal.
    rewrite map_seq_S. change (1 =? 0)%nat with false. change (1 =? 1)%nat with true. cbv iota.
    rewrite (map_const _ (delta R)); [|intros; reflexivity]. rewrite seq_length. reflexivity.
  Qed.
  Lemma on_pair_S n i M N p ps q qs : on_pair (R := R) (S n) (S i) M N (p :: ps) (q :: qs) = delta R p q * on_pair n i M N ps qs.
  Proof. unfold on_pair. rewrite map_seq_S. change (0 =? S i)%nat with false. change (0 =? S (S i))%nat with false. cbv iota. rewrite tensor_cons. reflexivity. Qed.

  Lemma ham_1 p q : ham 1 [p] [q] = Loc p q.
  Proof.
    unfold ham, cadd, csum. cbn [seq Nat.sub]. rewrite !sumf_cons, !sumf_nil. rewrite on_site_0. cbn. ring.
  Qed.
  Lemma ham_S n p ps q qs : ham (S (S n)) (p :: ps) (q :: qs) =
    Loc p q * ids (S n) ps qs + sumf R (fun k => A k p q * tensor (B k :: repeat (delta R) n) ps qs) (seq 1 K) +
    delta R p q * ham (S n) ps qs.
  Proof.
    unfold ham, cadd, csum. rewrite (sumf_seq_S (fun i => on_site (S (S n)) i Loc (p :: ps) (q :: qs))).
    replace (S (S n) - 1)%nat with (S n) by lia.
    rewrite (sumf_seq_S (fun i => sumf R (fun k => on_pair (S (S n)) i (A k) (B k) (p :: ps) (q :: qs)) (seq 1 K))).
    cbv beta. rewrite on_site_0. replace (S n - 1)%nat with n by lia.
    rewrite (sumf_ext R (fun j => on_site (S (S n)) (S j) Loc (p :: ps) (q :: qs)) (fun j => delta R p q * on_site (S n) j Loc ps qs))
      by (intros; apply on_site_S).
    rewrite sumf_mul_l.
    rewrite (sumf_ext R (fun k => on_pair (S (S n)) 0 (A k) (B k) (p :: ps) (q :: qs)) (fun k => A k p q * tensor (B k :: repeat (delta R) n) ps qs))
      by (intros; apply on_pair_0).
    rewrite (sumf_ext R (fun j => sumf R (fun k => on_pair (S (S n)) (S j) (A k) (B k) (p :: ps) (q :: qs)) (seq 1 K))
               (fun j => delta R p q * sumf R (fun k => on_pair (S n) j (A k) (B k) ps qs) (seq 1 K))).
    2:{ intros j _. rewrite <- sumf_mul_l. apply sumf_ext. intros; apply on_pair_S. }
    rewrite sumf_mul_l. ring.
  Qed.

  Lemma sum_states (f : nat -> R) : sumf R f (seq 0 (S (S K))) = f 0%nat + sumf R f (seq 1 K) + f (S K).
  Proof. rewrite sumf_seq_snoc. cbn [seq]. rewrite sumf_cons. reflexivity. Qed.

  Lemma trim_right_dv W i : auto_tensor W -> length i = 4%nat -> dv (trim_right W) i = dv W i.
  Proof.
    intros [E _] Hi. unfold trim_right. rewrite E. cbn. destruct i as [|a [|b [|c [|e [|]]]]]; try discriminate. reflexivity.
  Qed.
  Lemma trim_right_dsh W : auto_tensor W -> dsh (trim_right W) = [S (S K); d; 1; d]%nat.
  Proof. intros [E _]. unfold trim_right. rewrite E. reflexivity. Qed.

  (** The suffixes of the chain, started in each state of the automaton. *)
  Lemma suffix W : auto_tensor W -> forall m ps qs, in_range (repeat d (S m)) ps = true -> in_range (repeat d (S m)) qs = true ->
    amp (repeat W m ++ [trim_right W]) 0 ps qs 0 = ids (S m) ps qs /\
    (forall k, 1 <= k <= K -> amp (repeat W m ++ [trim_right W]) k ps qs 0 = tensor (B k :: repeat (delta R) m) ps qs) /\
    amp (repeat W m ++ [trim_right W]) (S K) ps qs 0 = ham (S m) ps qs.
  Proof.
    intros HW. induction m as [|m IH]; intros [|p ps] [|q qs] Hp Hq; try discriminate;
      cbn [repeat in_range] in Hp, Hq; apply andb_true_iff in Hp, Hq; destruct Hp as [Hp Hps], Hq as [Hq Hqs];
      apply Nat.ltb_lt in Hp, Hq.
    - destruct ps; [|discriminate]. destruct qs; [|discriminate].
      assert (X : forall a, a < S (S K) -> amp (repeat W 0 ++ [trim_right W]) a [p] [q] 0 = auto_entry a p 0 q).
      { intros a Ha. cbn [repeat app amp]. rewrite (trim_right_dsh W HW). cbn [nth seq]. rewrite sumf_cons, sumf_nil, trim_right_dv by auto.
        destruct HW as [_ H]. rewrite H by lia. unfold delta. change (0 =? 0)%nat with true. cbv iota. ring. }
      repeat split.
      + rewrite X by lia. unfold auto_entry, ids. change (0 =? 0)%nat with true. cbv iota. cbn [repeat]. rewrite tensor_cons. cbn [tensor]. ring.
      + intros k Hk. rewrite X by lia. unfold auto_entry. change (0 =? 0)%nat with true. cbv iota.
        rewrite (proj2 (Nat.eqb_neq k 0)), (proj2 (Nat.leb_le k K)) by lia. cbn [repeat]. rewrite tensor_cons. cbn [tensor]. ring.
      + rewrite X by lia. rewrite ham_1. unfold auto_entry. change (0 =? 0)%nat with true. change (S K =? 0)%nat with false. cbv iota.
        rewrite (proj2 (Nat.leb_gt _ _)) by lia. reflexivity.
    - destruct (IH _ _ Hps Hqs) as (I0 & Ik & Il). clear IH.
      assert (X : forall a, a < S (S K) -> amp (repeat W (S m) ++ [trim_right W]) a (p :: ps) (q :: qs) 0 =
        auto_entry a p 0 q * ids (S m) ps qs + sumf R (fun k => auto_entry a p k q * tensor (B k :: repeat (delta R) m) ps qs) (seq 1 K) +
        auto_entry a p (S K) q * ham (S m) ps qs).
      { intros a Ha. cbn [repeat app amp]. pose proof (proj1 HW) as E. rewrite E. cbn [nth]. rewrite sum_states.
        pose proof (proj2 HW) as H. rewrite !H by lia. rewrite I0, Il. f_equal. f_equal. apply sumf_ext. intros k Hk. apply in_seq in Hk.
        rewrite H by lia. rewrite Ik by lia. reflexivity. }
      assert (Z : forall a, a < S K -> amp (repeat W (S m) ++ [trim_right W]) a (p :: ps) (q :: qs) 0 = auto_entry a p 0 q * ids (S m) ps qs).
      { intros a Ha. rewrite X by lia. rewrite sumf_zero.
        - unfold auto_entry at 2. change (S K =? 0)%nat with false. cbv iota. rewrite (proj2 (Nat.eqb_neq a (S K))) by lia. ring.
        - intros k Hk. apply in_seq in Hk. unfold auto_entry. rewrite (proj2 (Nat.eqb_neq k 0)), (proj2 (Nat.eqb_neq a (S K))) by lia. ring. }
      repeat split.
      + rewrite Z by lia. reflexivity.
      + intros k Hk. rewrite Z by lia. unfold auto_entry. change (0 =? 0)%nat with true. cbv iota.
        rewrite (proj2 (Nat.eqb_neq k 0)), (proj2 (Nat.leb_le k K)) by lia. reflexivity.
      + rewrite X by lia. rewrite ham_S. f_equal; [f_equal|].
        * unfold auto_entry. change (0 =? 0)%nat with true. change (S K =? 0)%nat with false. cbv iota. rewrite (proj2 (Nat.leb_gt _ _)) by lia. reflexivity.
        * apply sumf_ext. intros k Hk. apply in_seq in Hk. unfold auto_entry. rewrite (proj2 (Nat.eqb_neq k 0)) by lia. rewrite Nat.eqb_refl.
          rewrite (proj2 (Nat.leb_le k K)) by lia. reflexivity.
        * unfold auto_entry. change (S K =? 0)%nat with false. cbv iota. rewrite Nat.eqb_refl, (proj2 (Nat.leb_gt _ _)) by lia. reflexivity.
  Qed.

  Lemma upd_0 {X} (x : X) l a : upd (x :: l) 0 a = a :: l. Proof. reflexivity. Qed.
  Lemma upd_S {X} (x : X) l n a : upd (x :: l) (S n) a = x :: upd l n a. Proof. reflexivity. Qed.
  Lemma upd_last_repeat {X} (x a : X) n : upd (repeat x (S n)) n a = repeat x n ++ [a].
  Proof. induction n as [|n IH]; [reflexivity|]. cbn [repeat]. rewrite upd_S. cbn [app]. f_equal. exact IH. Qed.

  Lemma chain_shape l W m : dsh W = [l; d; l; d] -> forall l0, l0 = l -> mpo_shape d l0 (repeat W m ++ [trim_right W]) 1.
  Proof.
    intros E. induction m as [|m IH]; intros l0 ->; cbn [repeat app mpo_shape].
    - exists 1%nat. unfold trim_right. rewrite E. split; reflexivity.
    - exists l. split; [exact E|]. apply IH. reflexivity.
  Qed.

  Theorem chain_of_spec W n : auto_tensor W -> 0 < n ->
    exists Ws, chain_of (S K) n W = Ok Ws /\ length Ws = n /\ mpo_shape d 1 Ws 1 /\ ceq d n (mpo_op Ws) (ham n).
  Proof.
    intros HW Hn. pose proof (proj1 HW) as E. destruct n as [|[|m]]; [lia| |].
    - eexists. split; [reflexivity|]. split; [reflexivity|]. split.
      + exists 1%nat. cbn [upd firstn skipn app repeat]. unfold trim_right, trim_left. rewrite E. cbn. split; reflexivity.
      + intros ps qs Hp Hq. destruct (suffix W HW 0 ps qs Hp Hq) as (_ & _ & <-).
        destruct ps as [|p [|]]; try discriminate; [|cbn in Hp; rewrite andb_false_r in Hp; discriminate].
        destruct qs as [|q [|]]; try discriminate; [|cbn in Hq; rewrite andb_false_r in Hq; discriminate].
        cbn [upd firstn skipn app repeat]. unfold mpo_op. cbn [amp].
        rewrite (trim_right_dsh W HW). unfold trim_right, trim_left. rewrite !E. cbn [d_slice dsh nth seq]. rewrite !sumf_cons, !sumf_nil.
        cbn. rewrite !Nat.add_0_r. reflexivity.
    - cbn [chain_of]. cbn [repeat]. rewrite upd_0. cbn [rnth]. change (W :: repeat W m) with (repeat W (S m)).
      assert (RN : rnth (trim_left (S K) W :: repeat W (S m)) (S m) = Ok W).
      { unfold rnth. cbn [nth_error]. clear. induction m; [reflexivity|exact IHm]. }
      rewrite RN. cbn [rbind]. rewrite upd_S, upd_last_repeat. eexists. split; [reflexivity|]. split; [|split].
      + cbn [length]. rewrite app_length, repeat_length. cbn. lia.
      + cbn [mpo_shape]. exists (S (S K)). split; [unfold trim_left; rewrite E; reflexivity|]. apply (chain_shape _ _ _ E). reflexivity.
      + intros ps qs Hp Hq. destruct (suffix W HW (S m) ps qs Hp Hq) as (_ & _ & <-).
        destruct ps as [|p ps]; [discriminate|]. destruct qs as [|q qs]; [discriminate|].
        unfold mpo_op. cbn [repeat app amp]. rewrite E. unfold trim_left. rewrite E. cbn [d_slice dsh nth]. apply sumf_ext. intros c _. f_equal.
        cbn. rewrite Nat.add_0_r. reflexivity.
  Qed.
End Auto.

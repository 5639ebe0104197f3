(** Lemmas: the chains of the Hamiltonians reach all quantities of their bonds, and block chains of operators. *)
From Verif Require Import Base Quantity QuantityProofs Ring Index SpecIndex Dense IndexProofs BTensor SpecBTensor LegsProofs
  SpecChain ChainProofs ChainInst SpecSector Models SpecModels ModelsProofs ModelsBlock SpecModelsBlock ModelsBlockProofs MoveInst SpecCoalesce.
From Coq Require Import Lia.
Set Implicit Arguments.

Section D.
  Context {R : ring}.
  Add Ring Rring : (ring_th R).
  Notation D := (dense R).

  Lemma op_amp_models (l : list D) : forall out inn x y, length out = length l -> length inn = length l -> op_amp l out inn x y = SpecModels.amp l x out inn y.
  Proof.
    induction l as [|A l IH]; intros [|o out] [|i inn] x y Ho Hi; try discriminate; [reflexivity|]. cbn [op_amp SpecModels.amp]. apply sumf_ext. intros c _. rewrite IH by (cbn in *; lia). reflexivity.
  Qed.

  Variables (d K : nat) (Loc : mat R) (A B : nat -> mat R) (W : D).
  Hypothesis HW : auto_tensor d K Loc A B W.
  Lemma op_amp_states l p out q inn x y : op_amp (W :: l) (p :: out) (q :: inn) x y = sum c < S (S K), rmul (dv W [x; p; c; q]) (op_amp l out inn c y).
  Proof. cbn [op_amp]. unfold size. rewrite (proj1 HW). reflexivity. Qed.
  (** From a state other than the last one only state 0 can be reached. *)
  Lemma stuck i : forall out inn c y, in_range (repeat d (S i)) out = true -> in_range (repeat d (S i)) inn = true -> c < S K -> 1 <= y < S (S K) -> op_amp (repeat W (S i)) out inn c y = rz.
  Proof.
    induction i as [|i IH]; intros [|p out] [|q inn] c y Ho Hi Hc Hy; try discriminate; change (repeat W (S ?n)) with (W :: repeat W n); rewrite op_amp_states; apply sumf_zero; intros c' Hc'; apply in_seq in Hc';
      change (repeat d (S ?n)) with (d :: repeat d n) in Ho, Hi; cbn [in_range] in Ho, Hi; apply andb_true_iff in Ho as (Hp & Ho), Hi as (Hq & Hi); apply Nat.ltb_lt in Hp, Hq.
    - destruct out; [|discriminate]. destruct inn; [|discriminate]. cbn [repeat op_amp]. destruct (Nat.eqb_spec c' y) as [->|N]; [|ring].
      rewrite (proj2 HW) by lia. unfold auto_entry. rewrite (proj2 (Nat.eqb_neq y 0)), (proj2 (Nat.eqb_neq c (S K))) by lia. ring.
    - destruct c' as [|c']; [rewrite IH by (auto; lia); ring|]. rewrite (proj2 HW) by lia. unfold auto_entry. rewrite (proj2 (Nat.eqb_neq (S c') 0)), (proj2 (Nat.eqb_neq c (S K))) by lia. ring.
  Qed.
  Lemma zeros_range i p : 0 < d -> p < d -> in_range (repeat d (S i)) (repeat 0 i ++ [p]) = true.
  Proof.
    intros Hd Hp. induction i as [|i IH]; [cbn; rewrite (proj2 (Nat.ltb_lt _ _) Hp); reflexivity|]. change ((0 <? d) && in_range (repeat d (S i)) (repeat 0 i ++ [p]) = true). rewrite IH, (proj2 (Nat.ltb_lt _ _) Hd). reflexivity.
  Qed.
  (** From the last state every other one is reached in the last step. *)
  Lemma reach i p q y : p < d -> q < d -> 1 <= y < S (S K) -> op_amp (repeat W (S i)) (repeat 0 i ++ [p]) (repeat 0 i ++ [q]) (S K) y = auto_entry K Loc A B (S K) p y q.
  Proof.
    intros Hp Hq Hy. induction i as [|i IH].
    - cbn [repeat app]. rewrite op_amp_states. cbn [op_amp]. rewrite sum_delta by lia. apply (proj2 HW); lia.
    - change (repeat W (S (S i))) with (W :: repeat W (S i)). cbn [repeat app]. change (W :: repeat W i) with (repeat W (S i)). rewrite op_amp_states.
      rewrite (@sumf_single R _ _ _ (S K)); [|apply seq_NoDup|apply in_seq; lia|].
      + rewrite IH, (proj2 HW) by lia. unfold auto_entry at 1. change (S K =? 0) with false. rewrite Nat.eqb_refl. cbv iota. rewrite (proj2 (Nat.leb_gt _ _)) by lia. change (delta R 0 0) with (@ro R). ring.
      + intros c Hc Nc. apply in_seq in Hc. rewrite stuck; [ring|apply zeros_range; lia|apply zeros_range; lia|lia|lia].
  Qed.
  Lemma first_site l p out q inn y : op_amp (trim_left (S K) W :: l) (p :: out) (q :: inn) 0 y = op_amp (W :: l) (p :: out) (q :: inn) (S K) y.
  Proof.
    cbn [op_amp]. unfold size. unfold trim_left. rewrite (proj1 HW). cbn [d_slice dsh nth]. apply sumf_ext. intros c _. f_equal. cbn. rewrite !Nat.add_0_r. reflexivity.
  Qed.
  Lemma firstn_repeat_le {X} (a : X) r i m : i <= m -> firstn i (repeat a m ++ r) = repeat a i.
  Proof. revert m. induction i as [|i IH]; intros [|m] H; [reflexivity..|lia|]. cbn [repeat app firstn]. rewrite IH by lia. reflexivity. Qed.
  Lemma chain_prefix m i : i <= m -> firstn (S i) (trim_left (S K) W :: repeat W m ++ [trim_right W]) = trim_left (S K) W :: repeat W i.
  Proof. intros H. cbn [firstn]. rewrite firstn_repeat_le by exact H. reflexivity. Qed.
  Lemma prefix_sizes i k : k = 1 \/ k = 3 -> map (size k) (trim_left (S K) W :: repeat W i) = repeat d (S i).
  Proof.
    intros Hk. cbn [map repeat]. f_equal; [unfold size, trim_left; rewrite (proj1 HW); destruct Hk as [-> | ->]; reflexivity|].
    induction i as [|i IH]; [reflexivity|]. cbn [repeat map]. rewrite IH. f_equal. unfold size. rewrite (proj1 HW). destruct Hk as [-> | ->]; reflexivity.
  Qed.
  Lemma prefix_reach i p q y : p < d -> q < d -> 1 <= y < S (S K) ->
    op_amp (trim_left (S K) W :: repeat W i) (repeat 0 i ++ [p]) (repeat 0 i ++ [q]) 0 y = auto_entry K Loc A B (S K) p y q.
  Proof.
    intros Hp Hq Hy. rewrite <- (reach i Hp Hq Hy). destruct i; cbn [repeat app]; rewrite first_site; reflexivity.
  Qed.
End D.

Section B.
  Context {G : abgroup} {R : ring}.
  Notation bt := (btensor G R).
  Variables (d K : nat) (Loc : mat R) (A B : nat -> mat R) (W : dense R).
  Hypothesis HW : auto_tensor d K Loc A B W.
  Variable lq : list G.
  Hypothesis Hl : length lq = S (S K).
  Hypothesis Hends : nth 0 lq (qe G) = nth (S K) lq (qe G).
  Hypothesis Hd : 0 < d.
  Hypothesis H1 : @ro R <> rz.
  Hypothesis HA : forall b, 1 <= b <= K -> exists p q, p < d /\ q < d /\ A b p q <> rz.

  Lemma auto_reached (Ts : list bt) m : inner_bonds Ts (bdual G (repeat 1 (length lq), lq)) -> length Ts = S (S m) ->
    bonds_reached Ts (trim_left (S K) W :: repeat W m ++ [trim_right W]) 1.
  Proof.
    intros HI HT i T ET Hi. unfold right_leg. rewrite (HI i T ET Hi). rewrite (chain_prefix K W) by lia. split; [cbn [bdual fst]; rewrite Hl; discriminate|].
    intros b Hb. cbn [bdual fst] in Hb. rewrite repeat_length in Hb. rewrite !(prefix_sizes HW) by tauto.
    assert (X : exists y p q, 1 <= y < S (S K) /\ p < d /\ q < d /\ nth y lq (qe G) = nth b lq (qe G) /\ auto_entry K Loc A B (S K) p y q <> rz).
    { assert (DE : auto_entry K Loc A B (S K) 0 (S K) 0 <> rz) by (unfold auto_entry; change (S K =? 0) with false; rewrite Nat.eqb_refl; cbv iota; rewrite (proj2 (Nat.leb_gt _ _)) by lia; exact H1).
      destruct (Nat.eq_dec b 0) as [->|N0]; [exists (S K), 0, 0; rewrite Hends; repeat split; auto; lia|]. destruct (Nat.eq_dec b (S K)) as [->|N1]; [exists (S K), 0, 0; repeat split; auto; lia|].
      destruct (HA (b := b)) as (p & q & Hp & Hq & HN); [lia|]. exists b, p, q. repeat split; auto; try lia. unfold auto_entry. rewrite (proj2 (Nat.eqb_neq b 0)) by lia. rewrite Nat.eqb_refl, (proj2 (Nat.leb_le b K)) by lia. exact HN. }
    destruct X as (y & p & q & Hy & Hp & Hq & Ey & HN). exists (repeat 0 i ++ [p]), (repeat 0 i ++ [q]), 0, y.
    split; [apply zeros_range; assumption|]. split; [apply zeros_range; assumption|]. split; [lia|]. split; [|rewrite (prefix_reach HW) by assumption; exact HN].
    assert (E : nth b (snd (bdual G (repeat 1 (length lq), lq))) (qe G) = qinv G (nth y lq (qe G))) by (rewrite Ey; cbn [bdual snd]; rewrite <- (qinv_e G) at 1; apply map_nth).
    rewrite E. apply carries_dual, carries_units. lia.
  Qed.
End B.

Section Chains.
  Context {G : abgroup} {R : ring}.
  Notation bt := (btensor G R).
  Variable P : bt.
  Notation lp := (nth 0 (blegs P) ([], [])).
  Lemma block_mpo_length (Ts : list bt) : forall Ws x y, block_mpo P Ts Ws x y -> length Ts = length Ws.
  Proof. induction Ts as [|T Ts IH]; intros [|V Ws] x y H; try contradiction; [reflexivity|]. destruct H as (_ & _ & _ & k & _ & H). cbn. f_equal. eapply IH; eauto. Qed.
  Lemma block_mpo_split imax k0 (Ts : list bt) : forall Ws x y, block_mpo P Ts Ws x y -> inner_bonds Ts k0 -> length (fst x) <= imax -> length (fst y) <= imax -> length (fst lp) <= imax -> length (fst k0) <= imax ->
    Forall2 (stored imax) Ts Ws /\ op_chain (@blegs G R) (@bdual G) Ts x y /\ map (@b_rule G R) Ts = repeat (qe G) (length Ts) /\ map (@phys_legs G R) Ts = repeat (lp, bdual G lp) (length Ts).
  Proof.
    induction Ts as [|T Ts IH]; intros [|V Ws] x y H HI Hx Hy Hp Hk; try contradiction; [split; [constructor|split; [exact H|split; reflexivity]]|].
    destruct H as (V1 & V2 & V3 & k & V4 & H).
    assert (Lk : length (fst k) <= imax).
    { destruct Ts as [|T2 Ts]; [destruct Ws; [|contradiction]; cbn in H; subst k; exact Hy|]. assert (E := HI 0 T eq_refl). rewrite V4 in E. cbn in E. rewrite E by lia. exact Hk. }
    destruct (IH Ws k y) as (F1 & F2 & F3 & F4); auto.
    { intros i X EX HX. apply (HI (S i) X EX). cbn. lia. }
    split; [|split; [|split]].
    - constructor; [|exact F1]. split; [exact V1|]. split; [exact V2|]. apply sbd_imax; [apply V1|]. rewrite V4. intros l Hl. cbn in Hl. destruct Hl as [<-|[<-|[<-|[<-|[]]]]]; auto.
    - exists lp, k, (bdual G lp). split; [exact V4|exact F2].
    - cbn [map length repeat]. rewrite F3, V3. reflexivity.
    - cbn [map length repeat]. rewrite F4. unfold phys_legs at 1. rewrite V4. reflexivity.
  Qed.
  Lemma block_mpo_join imax (Ts : list bt) : forall Ws x y, Forall2 (stored imax) Ts Ws -> op_chain (@blegs G R) (@bdual G) Ts x y ->
    map (@b_rule G R) Ts = repeat (qe G) (length Ts) -> map (@phys_legs G R) Ts = repeat (lp, bdual G lp) (length Ts) -> block_mpo P Ts Ws x y.
  Proof.
    induction Ts as [|T Ts IH]; intros Ws x y F C ER EP; inversion F as [|? V ? Ws' FT F']; subst; [exact C|]. destruct C as (p & k & p' & EL & C). cbn [map length repeat] in ER, EP. injection ER as R1 R2. injection EP as P1 P2 P3.
    rewrite EL in P1, P2. cbn [nth] in P1, P2. subst p p'. cbn [block_mpo]. destruct FT as (F1 & F2 & _). split; [exact F1|]. split; [exact F2|]. split; [exact R1|]. exists k. split; [exact EL|]. apply IH; auto.
  Qed.
  Lemma block_mpo_sizes (Ts : list bt) : forall Ws x y, block_mpo P Ts Ws x y -> forall k, k = 1 \/ k = 3 -> map (@size R k) Ws = repeat (bsz G lp) (length Ws).
  Proof.
    induction Ts as [|T Ts IH]; intros [|V Ws] x y H k Hk; try contradiction; [reflexivity|]. destruct H as (V1 & V2 & _ & b & EL & H). cbn [map length repeat]. f_equal; [|eapply IH; eauto].
    unfold size. destruct V2 as [-> _]. rewrite <- (blegs_fst (proj1 V1)), map_map, EL. destruct Hk as [-> | ->]; cbn; [|]; reflexivity.
  Qed.
End Chains.

(** Proofs about the containers [MPS] and [bMPS]. *)
From Verif Require Import Base BTensor Dmrg DmrgProofs MoveOc MpsBox SpecMpsBox.
Set Implicit Arguments.
Local Open Scope Z_scope.

Section Turns.
  Variable T : Type.
  Variable pull push : T -> T -> result (T * T).
  Lemma zset_length A (l : list A) i a s : zset l i a = Ok s -> length s = length l.
  Proof.
    unfold zset. destruct (_ && _) eqn:E; [|discriminate]. intros [= <-]. apply andb_true_iff in E as [E1 E2].
    apply Z.leb_le in E1. apply Z.ltb_lt in E2. apply upd_length. lia.
  Qed.
  Lemma moves_spec k : forall left sites oc s oc', moves pull push k left sites oc = Ok (s, oc') ->
    length s = length sites /\ oc' = if left then oc - Z.of_nat k else oc + Z.of_nat k.
  Proof.
    induction k as [|k IH]; intros left sites oc s oc' H; cbn [moves] in H.
    { injection H as <- <-. split; [reflexivity|destruct left; lia]. }
    destruct (zget sites _); try discriminate. cbn [rbind] in H. destruct (zget sites _); try discriminate. cbn [rbind] in H.
    destruct ((if left then pull else push) _ _) as [[x y]|e|]; try discriminate. cbn [rbind] in H.
    destruct (zset sites _ _) as [s1|e|] eqn:E1; try discriminate. cbn [rbind] in H. destruct (zset s1 _ _) as [s2|e|] eqn:E2; try discriminate. cbn [rbind] in H.
    apply IH in H as [H1 H2]. split; [rewrite H1, (zset_length _ _ _ E2); eapply zset_length; eauto|]. destruct left; lia.
  Qed.
  Lemma move_to_spec sites oc i s oc' : move_to pull push sites oc i = Ok (s, oc') -> length s = length sites /\ oc' = i /\ 0 <= i < Z.of_nat (length sites).
  Proof.
    unfold move_to. destruct (negb _) eqn:E; [discriminate|]. apply negb_false_iff, andb_true_iff in E as [E1 E2]. apply Z.leb_le in E1. apply Z.ltb_lt in E2.
    destruct (Z.ltb_spec i oc); intros H'; apply moves_spec in H' as [-> ->]; repeat split; lia.
  Qed.
  Lemma zget_ok (l : list T) i : 0 <= i < Z.of_nat (length l) -> exists a, zget l i = Ok a /\ In a l.
  Proof.
    intros H. unfold zget, rnth. destruct (Z.ltb_spec i 0); [lia|]. destruct (nth_error l (Z.to_nat i)) as [a|] eqn:E; [exists a; split; [reflexivity|eapply nth_error_In; eauto]|].
    apply nth_error_None in E. lia.
  Qed.
  Lemma zget_ub (l : list T) i : Z.of_nat (length l) <= i -> zget l i = UB.
  Proof. clear pull push. intros H. unfold zget, rnth. destruct (i <? 0); [reflexivity|]. destruct (nth_error l (Z.to_nat i)) eqn:E; [|reflexivity]. apply nth_error_Some_lt in E || (assert (Z.to_nat i < length l)%nat by (apply nth_error_Some; congruence)). lia. Qed.
  Lemma zset_ok A (l : list A) i a : 0 <= i < Z.of_nat (length l) -> exists s, zset l i a = Ok s /\ length s = length l.
  Proof.
    intros H. unfold zset. replace ((0 <=? i) && (i <? Z.of_nat (length l))) with true by (symmetry; apply andb_true_iff; split; [apply Z.leb_le|apply Z.ltb_lt]; lia).
    eexists. split; [reflexivity|]. apply upd_length. lia.
  Qed.
  Hypothesis Hpull : forall a b, pull a b <> UB.
  Hypothesis Hpush : forall a b, push a b <> UB.
  Lemma moves_defined k : forall (left : bool) sites oc, 0 <= oc < Z.of_nat (length sites) ->
    (if left then Z.of_nat k <= oc else oc + Z.of_nat k < Z.of_nat (length sites)) -> moves pull push k left sites oc <> UB.
  Proof.
    induction k as [|k IH]; intros left sites oc H Hk; cbn [moves]; [discriminate|].
    set (i := if left then oc - 1 else oc). assert (Hi : 0 <= i /\ i + 1 < Z.of_nat (length sites)) by (unfold i; destruct left; lia).
    destruct (@zget_ok sites i) as (a & -> & _); [lia|]. destruct (@zget_ok sites (i + 1)) as (b & -> & _); [lia|]. cbn [rbind].
    destruct ((if left then pull else push) a b) as [[x y]|e|] eqn:E; [|discriminate|destruct left; [now apply Hpull in E|now apply Hpush in E]]. cbn [rbind].
    destruct (@zset_ok _ sites i x) as (s1 & -> & L1); [lia|]. cbn [rbind]. destruct (@zset_ok _ s1 (i + 1) y) as (s2 & -> & L2); [lia|]. cbn [rbind].
    apply IH; rewrite L2, L1; destruct left; lia.
  Qed.
  Lemma move_to_defined sites oc i : 0 <= oc < Z.of_nat (length sites) -> move_to pull push sites oc i <> UB.
  Proof.
    intros H. unfold move_to. destruct (negb _) eqn:E; [discriminate|]. apply negb_false_iff, andb_true_iff in E as [E1 E2]. apply Z.leb_le in E1. apply Z.ltb_lt in E2.
    destruct (Z.ltb_spec i oc); apply moves_defined; lia.
  Qed.
End Turns.

Section Box.
  Variable T : Type.
  Variable block : bool.
  Variable dflt : T.
  Variable chk : list T -> result bool.
  Variable one : T -> bool.
  Variable conv : T -> result T.
  Variable pull push : T -> T -> result (T * T).
  Implicit Types (c : chain T) (st : list (chain T)).
  Notation step := (step block dflt chk one conv pull push).
  Notation run := (run block dflt chk one conv pull push).
  Notation move_centre := (move_centre block pull push).
  Notation to := (to block dflt chk one conv).

  Lemma u64_small z : 0 <= z < 2 ^ 64 -> u64 z = z.
  Proof. apply Z.mod_small. Qed.
  Lemma u64_range z : 0 <= u64 z < 2 ^ 64.
  Proof. apply Z.mod_pos_bound. lia. Qed.
  Lemma guard_ok n k : 0 <= k -> guard n k = false -> position n k.
  Proof.
    unfold guard, position. intros Hk H. apply andb_false_iff in H as [H|H]; [apply Z.leb_gt in H; lia|]. apply negb_false_iff, Z.eqb_eq in H. lia.
  Qed.
  Lemma alloc_ok A (l : list A) m : alloc l = Ok m -> m = l /\ Z.of_nat (length l) < 2 ^ 63.
  Proof. unfold alloc. destruct (Z.ltb_spec (Z.of_nat (length l)) (2 ^ 63)); [|discriminate]. intros [= <-]. auto. Qed.
  Lemma pow_split : 2 ^ 64 = 2 * 2 ^ 63. Proof. reflexivity. Qed.
  Lemma clamp_ok n k : Z.of_nat n < 2 ^ 63 -> position n (Z.min (u64 k) (u64 (Z.of_nat n - 1))) <-> (n <> O \/ u64 k = 0).
  Proof.
    intros Hn. pose proof (u64_range k) as Hk. pose proof pow_split as P. unfold position. destruct n as [|n].
    - replace (u64 (Z.of_nat 0 - 1)) with (2 ^ 64 - 1) by reflexivity. rewrite Z.min_l by lia. split; [intros [H|H]; [cbn in H; lia|auto]|intros [H|H]; [congruence|auto]].
    - rewrite (@u64_small (Z.of_nat (S n) - 1)) by lia. split; [left; discriminate|]. intros _. left. lia.
  Qed.

  (** The constructors. *)
  Lemma build_spec st k c : build block dflt chk one k = Ok c -> (centred_ok c <-> harmless block st (New k)).
  Proof.
    destruct k as [|n|n oc|l oc|n t oc|l]; cbn [build harmless]; intros H.
    - injection H as <-. split; [trivial|]. intros _. exists 0. split; [reflexivity|right; reflexivity].
    - destruct (alloc _); [|discriminate|discriminate]. injection H as <-. split; [trivial|]. intros _. exists 0. split; [reflexivity|right; reflexivity].
    - destruct (alloc _) as [l| |] eqn:E; [|discriminate|discriminate]. injection H as <-. apply alloc_ok in E as [-> Hn]. rewrite repeat_length in Hn.
      unfold centred_ok. cbn [centre sites]. rewrite repeat_length. change (oc mod 2 ^ 64) with (u64 oc). destruct block.
      + rewrite <- clamp_ok by exact Hn. split; [intros (k & [= <-] & Hk); exact Hk|intros Hk; eauto].
      + split; [intros (k & [= <-] & Hk); exact Hk|intros Hk; eauto].
    - destruct (chk l) as [[]| |]; try discriminate. cbn in H. destruct (guard _ _) eqn:E; [discriminate|]. injection H as <-. split; [trivial|]. intros _.
      exists (u64 oc). split; [reflexivity|]. apply guard_ok; [apply u64_range|exact E].
    - destruct (alloc _) as [l| |] eqn:E; [|discriminate|discriminate]. cbn [rbind] in H. apply alloc_ok in E as [-> Hn]. destruct (guard _ _) eqn:E; [discriminate|]. destruct (one t); [|discriminate]. injection H as <-. split; [trivial|]. intros _.
      exists (u64 oc). split; [reflexivity|]. cbn [sites]. rewrite repeat_length. apply guard_ok; [apply u64_range|exact E].
    - injection H as <-. unfold centred_ok. cbn. destruct block; split; intros H; [destruct H as (k & ? & _)|..]; try discriminate; [reflexivity|]. exists 0. split; [reflexivity|right; reflexivity].
  Qed.

  Lemma Forall_snoc st c : Forall (@centred_ok T) st -> (Forall (@centred_ok T) (st ++ [c]) <-> centred_ok c).
  Proof. intros H. rewrite Forall_app. split; [intros [_ H1]; inversion H1; auto|auto]. Qed.
  Lemma rnth_some A (l : list A) i a : rnth l i = Ok a -> nth_error l i = Some a.
  Proof. unfold rnth. destruct (nth_error l i); congruence. Qed.
  Lemma Forall_firstn A (P : A -> Prop) n l : Forall P l -> Forall P (firstn n l).
  Proof. intros H. rewrite <- (firstn_skipn n l) in H. apply Forall_app in H. tauto. Qed.
  Lemma Forall_skipn A (P : A -> Prop) n l : Forall P l -> Forall P (skipn n l).
  Proof. intros H. rewrite <- (firstn_skipn n l) in H. apply Forall_app in H. tauto. Qed.
  Lemma Forall_upd st i c : Forall (@centred_ok T) st -> (Forall (@centred_ok T) (upd st i c) <-> centred_ok c).
  Proof.
    intros H. unfold upd. rewrite Forall_app. split; [intros [_ H1]; inversion H1; auto|]. intros Hc. split; [apply Forall_firstn, H|]. constructor; [exact Hc|apply Forall_skipn, H].
  Qed.
  Lemma Forall_at st i c : Forall (@centred_ok T) st -> nth_error st i = Some c -> centred_ok c.
  Proof. rewrite Forall_forall. intros H E. apply H. eapply nth_error_In; eauto. Qed.
  Lemma rcentre_some c k : rcentre c = Ok k -> centre c = Some k.
  Proof. unfold rcentre. destruct (centre c); congruence. Qed.
  Lemma chain_eta c k : centre c = Some k -> mkC (sites c) (Some k) = c.
  Proof. destruct c. cbn. congruence. Qed.

  (** Operations that touch the tensors of one variable. *)
  Lemma on_spec st i f st' : on st i f = Ok st' -> exists c c', nth_error st i = Some c /\ f c = Ok c' /\ st' = upd st i c'.
  Proof.
    unfold on. destruct (rnth st i) as [c| |] eqn:E; try discriminate. cbn [rbind]. destruct (f c) as [c'| |] eqn:F; try discriminate. intros [= <-].
    exists c, c'. split; [apply rnth_some, E|auto].
  Qed.
  Lemma vec_ok f c c' : vec f c = Ok c' -> exists l, f (sites c) = Ok l /\ c' = mkC l (centre c).
  Proof.
    unfold vec. destruct (f (sites c)) as [l| |]; try discriminate. cbn [rbind]. destruct (alloc l) as [m| |] eqn:E; try discriminate. intros [= <-].
    apply alloc_ok in E as [-> _]. eauto.
  Qed.
  Lemma on_vec st i f st' (g : nat -> nat) : Forall (@centred_ok T) st -> on st i (vec f) = Ok st' -> (forall l l', f l = Ok l' -> length l' = g (length l)) ->
    (Forall (@centred_ok T) st' <-> keeps st i g).
  Proof.
    intros Hst H Hf. apply on_spec in H as (c & c' & E & H & ->). apply vec_ok in H as (l & Hl & ->). apply Hf in Hl. rewrite Forall_upd by exact Hst.
    destruct (Forall_at _ Hst E) as (k & Ek & Pk). unfold centred_ok, keeps. cbn [sites centre]. rewrite Hl, Ek. split.
    - intros (k' & [= <-] & H) c0 k0 E0 E1. rewrite E in E0. injection E0 as <-. rewrite Ek in E1. injection E1 as <-. exact H.
    - intros H. exists k. split; [reflexivity|]. apply H; assumption.
  Qed.
  Lemma grow st i (g : nat -> nat) : Forall (@centred_ok T) st -> (forall n, n <= g n)%nat -> keeps st i g.
  Proof.
    intros Hst Hg c k E Ek. destruct (Forall_at _ Hst E) as (k' & E' & P). rewrite Ek in E'. injection E' as <-. specialize (Hg (length (sites c))).
    destruct P as [P|P]; [left; lia|right; exact P].
  Qed.

  Lemma rmapM_length A B (f : A -> result B) l m : rmapM f l = Ok m -> length m = length l.
  Proof.
    revert m. induction l as [|x l IH]; intros m H; cbn in H; [injection H as <-; reflexivity|]. destruct (f x); try discriminate. cbn [rbind] in H.
    destruct (rmapM f l); try discriminate. cbn in H. injection H as <-. cbn. f_equal. auto.
  Qed.
  Lemma to_spec c c' : centred_ok c -> to c = Ok c' -> centre c' = centre c /\ rmapM conv (sites c) = Ok (sites c') /\ length (sites c') = length (sites c).
  Proof.
    intros (k & Ek & P) H. unfold MpsBox.to, rcentre in H. rewrite Ek in H. cbn [rbind build] in H. destruct (alloc _) as [m| |] eqn:E; try discriminate. cbn [rbind] in H.
    apply alloc_ok in E as [-> Hn]. rewrite repeat_length in Hn. destruct (rmapM conv (sites c)) as [l| |] eqn:F; try discriminate. cbn in H. injection H as <-. cbn [sites centre].
    split; [|split; [reflexivity|exact (rmapM_length _ _ F)]]. rewrite Ek. f_equal. pose proof pow_split as P2.
    assert (K : 0 <= k < 2 ^ 63) by (destruct P; lia). rewrite (@u64_small k) by lia. destruct block; [|reflexivity]. destruct P as [P|P].
    - rewrite u64_small by lia. lia.
    - subst k. pose proof (u64_range (Z.of_nat (length (sites c)) - 1)). lia.
  Qed.

  Lemma move_centre_spec c i c' : move_centre c i = Ok c' -> length (sites c') = length (sites c) /\ centre c' = Some i /\ 0 <= i < Z.of_nat (length (sites c)).
  Proof.
    unfold MpsBox.move_centre. destruct (negb _); [discriminate|]. destruct (rcentre c) as [k| |]; try discriminate. cbn [rbind].
    destruct (if block then _ else _); try discriminate. cbn [rbind]. destruct (move_to _ _ _ _ _) as [[l k']| |] eqn:E; try discriminate. intros [= <-].
    apply move_to_spec in E as (H1 & -> & H2). auto.
  Qed.

  (** Every operation. *)
  Theorem step_ok st o st' : Forall (@centred_ok T) st -> step st o = Ok st' -> (Forall (@centred_ok T) st' <-> harmless block st o).
  Proof.
    intros Hst H. destruct o; cbn [MpsBox.step] in H.
    - destruct (build _ _ _ _ c) as [x| |] eqn:E; try discriminate. injection H as <-. rewrite Forall_snoc by exact Hst. apply build_spec, E.
    - cbn [harmless]. destruct (rnth st i) as [c| |] eqn:E; try discriminate. cbn [rbind] in H. apply rnth_some in E. unfold copy in H. destruct (rcentre c) as [k| |] eqn:F; try discriminate.
      cbn in H. injection H as <-. rewrite Forall_snoc by exact Hst. rewrite (chain_eta _ (rcentre_some _ F)). split; [trivial|]. intros _. eapply Forall_at; eauto.
    - cbn [harmless]. destruct (rnth st i) as [c| |] eqn:E; try discriminate. cbn [rbind] in H. apply rnth_some in E. unfold move in H. destruct (rcentre c) as [k| |] eqn:F; try discriminate.
      cbn in H. injection H as <-. apply rcentre_some in F. rewrite Forall_app, Forall_upd by exact Hst. rewrite (chain_eta _ F). unfold centred_ok at 1, keeps. cbn [sites centre length]. split.
      + intros [(k' & [= <-] & P) _] c0 k0 E0 E1. rewrite E in E0. injection E0 as <-. rewrite F in E1. injection E1 as <-. exact P.
      + intros P. split; [exists k; split; [reflexivity|]; eapply P; eauto|]. constructor; [|constructor]. eapply Forall_at; eauto.
    - cbn [harmless]. destruct (rnth st j) as [b| |] eqn:E; try discriminate. cbn [rbind] in H. apply rnth_some in E. unfold copy in H. destruct (rcentre b) as [k| |] eqn:F; try discriminate.
      cbn [rbind] in H. destruct (rnth st i) as [a| |] eqn:E2; try discriminate. cbn [rbind] in H. unfold swap in H. destruct (rcentre a); try discriminate. cbn in H. injection H as <-.
      rewrite Forall_upd by exact Hst. rewrite (chain_eta _ (rcentre_some _ F)). split; [trivial|]. intros _. eapply Forall_at; eauto.
    - cbn [harmless]. destruct (rnth st j) as [b| |] eqn:E; try discriminate. cbn [rbind] in H. apply rnth_some in E. unfold move in H. destruct (rcentre b) as [k| |] eqn:F; try discriminate.
      cbn [rbind] in H. destruct (rnth (upd st j _) i) as [a| |] eqn:E2; try discriminate. cbn [rbind] in H. unfold swap in H. destruct (rcentre a); try discriminate. cbn in H. injection H as <-.
      apply rcentre_some in F. apply rnth_some in E2. rewrite (chain_eta _ F). pose proof (Forall_at _ Hst E) as Hb.
      assert (Lj : (j < length st)%nat) by (apply nth_error_Some; congruence).
      assert (Li : (i < length st)%nat) by (rewrite <- (upd_length st (mkC [] (Some k)) Lj); apply nth_error_Some; congruence).
      rewrite !Forall_forall.
      destruct (Nat.eq_dec i j) as [->|N].
      + split; [auto|]. intros _ x Hx. apply In_nth_error in Hx as (n & Hn). rewrite nth_error_upd in Hn by (rewrite upd_length; lia). destruct (Nat.eqb_spec n j); [injection Hn as <-; exact Hb|].
        rewrite nth_error_upd in Hn by lia. destruct (Nat.eqb_spec n j); [lia|]. eapply Forall_at; eauto.
      + split.
        * intros P. right. intros c0 k0 E0 E1. rewrite E in E0. injection E0 as <-. rewrite F in E1. injection E1 as <-.
          destruct (P (mkC [] (Some k))) as (k' & [= <-] & Q); [|exact Q]. apply nth_error_In with j. rewrite nth_error_upd by (rewrite upd_length; lia).
          destruct (Nat.eqb_spec j i); [lia|]. rewrite nth_error_upd, Nat.eqb_refl by lia. reflexivity.
        * intros [P|P]; [contradiction|]. intros x Hx. apply In_nth_error in Hx as (n & Hn). rewrite nth_error_upd in Hn by (rewrite upd_length; lia). destruct (Nat.eqb_spec n i); [injection Hn as <-; exact Hb|].
          rewrite nth_error_upd in Hn by lia. destruct (Nat.eqb_spec n j); [injection Hn as <-; exists k; split; [reflexivity|]; eapply P; eauto|]. eapply Forall_at; eauto.
    - cbn [harmless]. unfold swap_at in H. destruct (rnth st i) as [a| |] eqn:E; try discriminate. cbn [rbind] in H. destruct (rnth st j) as [b| |] eqn:F; try discriminate. cbn [rbind] in H.
      unfold swap in H. destruct (rcentre a) as [k| |] eqn:Ka; try discriminate. cbn [rbind] in H. destruct (rcentre b) as [l| |] eqn:Kb; try discriminate. cbn in H. injection H as <-.
      rewrite (chain_eta _ (rcentre_some _ Ka)), (chain_eta _ (rcentre_some _ Kb)). apply rnth_some in E. apply rnth_some in F. split; [trivial|]. intros _.
      pose proof (Forall_at _ Hst E) as Ha. pose proof (Forall_at _ Hst F) as Hb.
      rewrite Forall_upd; [exact Ha|]. rewrite Forall_upd; [exact Hb|exact Hst].
    - cbn [harmless]. destruct (rnth st i) as [c| |] eqn:E; try discriminate. cbn [rbind] in H. apply rnth_some in E. destruct (to c) as [x| |] eqn:F; try discriminate. injection H as <-.
      rewrite Forall_snoc by exact Hst. split; [trivial|]. intros _. pose proof (Forall_at _ Hst E) as Hc. destruct (to_spec Hc F) as (K & _ & L). destruct Hc as (k & Ek & P). exists k. rewrite K, L. auto.
    - cbn [harmless]. apply on_spec in H as (c & c' & E & H & ->). rewrite Forall_upd by exact Hst. split; [trivial|]. intros _. unfold to_ in H. destruct (to c) as [d| |] eqn:F; try discriminate. cbn in H. injection H as <-.
      pose proof (Forall_at _ Hst E) as Hc. destruct (to_spec Hc F) as (K & _ & L). destruct Hc as (k & Ek & P). exists k. cbn [sites centre]. rewrite L. auto.
    - cbn [harmless]. eapply on_vec; eauto. intros l l' [= <-]. reflexivity.
    - cbn [harmless]. rewrite (@on_vec st i _ st' (fun n => n + length m)%nat Hst H); [split; [trivial|]; intros _; apply grow; [exact Hst|intros; lia]|].
      intros l l'. unfold v_insert. destruct (Nat.leb p (length l)) eqn:E; [|discriminate]. intros [= <-]. apply Nat.leb_le in E. rewrite !app_length, firstn_length, skipn_length. lia.
    - cbn [harmless]. eapply on_vec; eauto. intros l l'. unfold v_erase. destruct (Nat.leb a b && _) eqn:E; [|discriminate]. intros [= <-]. apply andb_true_iff in E as [E1 E2]. apply Nat.leb_le in E1. apply Nat.leb_le in E2.
      rewrite app_length, firstn_length, skipn_length. lia.
    - cbn [harmless]. rewrite (@on_vec st i _ st' (fun n => n + 1)%nat Hst H); [split; [trivial|]; intros _; apply grow; [exact Hst|intros; lia]|]. intros l l' [= <-]. apply app_length.
    - cbn [harmless]. eapply on_vec; eauto. intros l l'. unfold v_pop. destruct l as [|x l]; [discriminate|]. intros E. assert (E' : l' = removelast (x :: l)) by (injection E; symmetry; assumption). rewrite E'. clear.
      destruct (exists_last (l := x :: l)) as (m & y & ->); [discriminate|]. rewrite removelast_last, app_length. cbn. lia.
    - cbn [harmless]. eapply on_vec; eauto. intros l l' [= <-]. unfold v_resize. rewrite app_length, firstn_length, repeat_length. lia.
    - cbn [harmless]. rewrite (@on_vec st i _ st' (fun n => n)%nat Hst H); [split; [trivial|]; intros _; apply grow; [exact Hst|intros; lia]|].
      intros l l'. destruct (Nat.ltb p (length l)) eqn:E; [|discriminate]. intros E'. assert (l' = firstn p l ++ t :: skipn (S p) l) as -> by congruence. apply Nat.ltb_lt in E. rewrite app_length. cbn [length]. rewrite firstn_length, skipn_length. lia.
    - cbn [harmless]. apply on_spec in H as (c & c' & E & H & ->). rewrite Forall_upd by exact Hst. split; [trivial|]. intros _. apply move_centre_spec in H as (L & K & P).
      exists k. rewrite L. split; [exact K|left; exact P].
  Qed.

  (** Executions. *)
  Lemma run_ok ops : forall st st', Forall (@centred_ok T) st -> (forall pre o post s, ops = pre ++ o :: post -> run pre st = Ok s -> harmless block s o) ->
    run ops st = Ok st' -> Forall (@centred_ok T) st'.
  Proof.
    induction ops as [|o ops IH]; intros st st' Hst Ha H; cbn in H; [injection H as <-; exact Hst|].
    destruct (step st o) as [s| |] eqn:E; try discriminate. cbn [rbind] in H. apply (IH s st'); [|intros pre x post s' -> Hp|exact H].
    - apply (step_ok _ Hst E). apply (Ha [] o ops st); reflexivity.
    - apply (Ha (o :: pre) x post s'); [reflexivity|]. cbn. rewrite E. exact Hp.
  Qed.

  (** Values. *)
  Lemma copy_value st i c : nth_error st i = Some c -> centred_ok c -> step st (Copy T i) = Ok (st ++ [c]).
  Proof. intros E (k & Ek & _). cbn. unfold rnth. rewrite E. cbn. unfold copy, rcentre. rewrite Ek. cbn. rewrite (chain_eta _ Ek). reflexivity. Qed.
  Lemma assign_value st i j a b : nth_error st i = Some a -> nth_error st j = Some b -> centred_ok a -> centred_ok b -> step st (Assign T i j) = Ok (upd st i b).
  Proof.
    intros E F (k & Ek & _) (l & El & _). cbn. unfold rnth. rewrite E, F. cbn. unfold copy, rcentre. rewrite El. cbn. unfold swap, rcentre. rewrite Ek. cbn. rewrite (chain_eta _ El). reflexivity.
  Qed.
  Lemma swap_value st i j a b : nth_error st i = Some a -> nth_error st j = Some b -> centred_ok a -> centred_ok b -> step st (Swap T i j) = Ok (upd (upd st i b) j a).
  Proof.
    intros E F (k & Ek & _) (l & El & _). cbn. unfold swap_at, rnth. rewrite E, F. cbn. unfold swap, rcentre. rewrite El, Ek. cbn. rewrite (chain_eta _ El), (chain_eta _ Ek). reflexivity.
  Qed.
  Lemma to_value st i c l : nth_error st i = Some c -> centred_ok c -> Z.of_nat (length (sites c)) < 2 ^ 63 -> rmapM conv (sites c) = Ok l ->
    step st (To T i) = Ok (st ++ [mkC l (centre c)]) /\ step st (ToIn T i) = Ok (upd st i (mkC l (centre c))).
  Proof.
    intros E Hc Hn Hl. assert (A : to c = Ok (mkC l (centre c))).
    { destruct (to c) as [c'| |] eqn:F.
      - destruct (to_spec Hc F) as (K & M & _). rewrite Hl in M. injection M as ->. destruct c'. cbn in *. congruence.
      - exfalso. revert F. destruct Hc as (k & Ek & _). unfold MpsBox.to, rcentre. rewrite Ek. cbn [rbind build]. unfold alloc. rewrite repeat_length. replace (_ <? _) with true by (symmetry; apply Z.ltb_lt, Hn). cbn [rbind]. rewrite Hl. discriminate.
      - exfalso. revert F. destruct Hc as (k & Ek & _). unfold MpsBox.to, rcentre. rewrite Ek. cbn [rbind build]. unfold alloc. rewrite repeat_length. replace (_ <? _) with true by (symmetry; apply Z.ltb_lt, Hn). cbn [rbind]. rewrite Hl. discriminate. }
    cbn [MpsBox.step]. unfold on, rnth. rewrite E. cbn [rbind]. unfold to_. rewrite A. split; reflexivity.
  Qed.
  Lemma move_value st i j a b : nth_error st i = Some a -> nth_error st j = Some b -> centred_ok a -> centred_ok b -> i <> j ->
    step st (MoveAssign T i j) = Ok (upd (upd st j (mkC [] (centre b))) i b).
  Proof.
    intros E F (k & Ek & _) (l & El & _) N. cbn [MpsBox.step]. unfold rnth. rewrite F. cbn [rbind]. unfold move, rcentre. rewrite El. cbn [rbind].
    assert (j < length st)%nat by (apply nth_error_Some; congruence). rewrite nth_error_upd by assumption. destruct (Nat.eqb_spec i j); [contradiction|]. rewrite E. cbn [rbind].
    unfold swap, rcentre. rewrite Ek. cbn. rewrite (chain_eta _ El). reflexivity.
  Qed.

  (** Displacing the centre. *)
  Lemma move_centre_defined c i : (forall a b, pull a b <> UB) -> (forall a b, push a b <> UB) -> centred_ok c -> move_centre c i <> UB.
  Proof.
    clear dflt chk one conv. intros Hl Hr (k & Ek & P). unfold MpsBox.move_centre, rcentre. rewrite Ek. cbn [rbind]. destruct (negb _) eqn:E; [discriminate|]. apply negb_false_iff, andb_true_iff in E as [E1 E2]. apply Z.leb_le in E1. apply Z.ltb_lt in E2.
    assert (K : 0 <= k < Z.of_nat (length (sites c))) by (destruct P; lia). destruct (@zget_ok _ (sites c) k K) as (a & -> & _). cbn [rbind].
    pose proof (@move_to_defined _ pull push Hl Hr (sites c) k i K) as D.
    destruct block; cbn [rbind]; destruct (move_to _ _ _ _ _) as [[l k']| |]; try discriminate; congruence.
  Qed.
  Lemma move_centre_off c i : (forall k, centre c = Some k -> 0 <= k) -> ~ centred_ok c -> 0 <= i < Z.of_nat (length (sites c)) -> move_centre c i = UB.
  Proof.
    clear dflt chk one conv. intros Hk N Hi. unfold MpsBox.move_centre, rcentre. replace ((0 <=? i) && (i <? Z.of_nat (length (sites c)))) with true by (symmetry; apply andb_true_iff; split; [apply Z.leb_le|apply Z.ltb_lt]; lia). cbn [negb].
    destruct (centre c) as [k|] eqn:Ek; [|reflexivity]. cbn [rbind]. assert (K : Z.of_nat (length (sites c)) <= k).
    { destruct (Z_lt_le_dec k (Z.of_nat (length (sites c)))); [|assumption]. exfalso. apply N. exists k. split; [exact Ek|]. left. split; [apply Hk; reflexivity|assumption]. }
    rewrite (zget_ub _ K). destruct block; [|reflexivity]. cbn [rbind]. unfold move_to.
    replace ((0 <=? i) && (i <? Z.of_nat (length (sites c)))) with true by (symmetry; apply andb_true_iff; split; [apply Z.leb_le|apply Z.ltb_lt]; lia). cbn [negb].
    replace (i <? k) with true by (symmetry; apply Z.ltb_lt; lia). replace (Z.to_nat (k - i)) with (S (Z.to_nat (k - i - 1))) by lia. cbn [moves].
    replace (k - 1 + 1) with k by lia. rewrite (zget_ub _ K). destruct (zget (sites c) (k - 1)) eqn:Z; try reflexivity. unfold zget, rnth in Z. destruct (k - 1 <? 0); [discriminate|]. destruct (nth_error _ _); discriminate.
  Qed.
End Box.

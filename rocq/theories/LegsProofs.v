(** Sections of several dimensions: places, their inverse, re-indexing of sums. *)
From Verif Require Import Base Ring Index SpecIndex IndexProofs Dense.
From Coq Require Import Permutation.
Set Implicit Arguments.

Lemma pick_length A (dflt : A) L b : length b = length L -> length (pick dflt L b) = length L.
Proof. revert b; induction L; intros [|x b] H; try discriminate; cbn; auto. Qed.
Lemma pick_nth A (dflt : A) L b k : length b = length L -> k < length L ->
  nth k (pick dflt L b) dflt = nth (nth k b 0) (nth k L []) dflt.
Proof.
  revert b k; induction L as [|l L IH]; intros [|x b] k H Hk; try discriminate; cbn in Hk; [lia|].
  destruct k; cbn; [reflexivity|]. apply IH; cbn in H; lia.
Qed.
Lemma origin_length L b : length b = length L -> length (origin L b) = length L.
Proof. revert b; induction L; intros [|x b] H; try discriminate; cbn; auto. Qed.
Lemma place_length L b o : length b = length L -> length o = length L -> length (place L b o) = length L.
Proof. revert b o; induction L; intros [|x b] [|y o] H H'; try discriminate; cbn; auto. Qed.
Lemma place_nth L b o k : length b = length L -> length o = length L -> k < length L ->
  nth k (place L b o) 0 = sum_list (firstn (nth k b 0) (nth k L [])) + nth k o 0.
Proof.
  revert b o k; induction L as [|l L IH]; intros [|x b] [|y o] k H H' Hk; try discriminate; cbn in Hk; [lia|].
  destruct k; cbn; [reflexivity|]. apply IH; cbn in *; lia.
Qed.
Lemma place_origin L b o : length b = length L -> length o = length L -> place L b o = map2 Nat.add (origin L b) o.
Proof. revert b o; induction L as [|l L IH]; intros [|x b] [|y o] H H'; try discriminate; cbn; auto. rewrite IH; auto. Qed.
Lemma place_sub L b o : length b = length L -> length o = length L -> map2 Nat.sub (place L b o) (origin L b) = o.
Proof.
  revert b o; induction L as [|l L IH]; intros [|x b] [|y o] H H'; try discriminate; cbn; auto. rewrite IH by auto. f_equal. lia.
Qed.

(** Inverse of [place]. *)
Fixpoint blkL (L : list (list nat)) (e : list nat) : list nat :=
  match L, e with l :: L', x :: e' => fst (find_section l x) :: blkL L' e' | _, _ => [] end.
Fixpoint offL (L : list (list nat)) (e : list nat) : list nat :=
  match L, e with l :: L', x :: e' => snd (find_section l x) :: offL L' e' | _, _ => [] end.

Definition lens {A} (L : list (list A)) : list nat := map (@length A) L.
Definition tots (L : list (list nat)) : list nat := map sum_list L.

Lemma in_range_len_pick L b o : in_range (lens L) b = true -> in_range (pick 0 L b) o = true ->
  length b = length L /\ length o = length L.
Proof.
  intros H1 H2. apply in_range_length in H1. unfold lens in H1. rewrite map_length in H1.
  apply in_range_length in H2. rewrite pick_length in H2; auto.
Qed.
Lemma place_spec L b o : in_range (lens L) b = true -> in_range (pick 0 L b) o = true ->
  in_range (tots L) (place L b o) = true /\ blkL L (place L b o) = b /\ offL L (place L b o) = o.
Proof.
  unfold lens, tots. revert b o; induction L as [|l L IH]; intros [|x b] [|y o] H1 H2; try discriminate; [cbn; auto|].
  cbn [map] in H1. apply in_range_cons in H1 as [H1 H1']. cbn [pick] in H2. apply in_range_cons in H2 as [H2 H2'].
  destruct (IH _ _ H1' H2') as [I1 [I2 I3]].
  assert (Hl : located l (sum_list (firstn x l) + y) x y) by (repeat split; auto).
  cbn [place map blkL offL]. rewrite in_range_cons, (find_section_unique Hl), I1, I2, I3. cbn [fst snd].
  split; auto. split; auto. eapply located_lt; eauto.
Qed.
Lemma unplace_spec L e : in_range (tots L) e = true ->
  in_range (lens L) (blkL L e) = true /\ in_range (pick 0 L (blkL L e)) (offL L e) = true /\
  place L (blkL L e) (offL L e) = e.
Proof.
  unfold lens, tots. revert e; induction L as [|l L IH]; intros [|x e] H; try discriminate; [cbn; auto|].
  cbn [map] in *. apply in_range_cons in H as [H1 H2]. destruct (IH _ H2) as [I1 [I2 I3]].
  pose proof (find_section_spec _ H1) as [F1 [F2 F3]].
  cbn [blkL offL pick place]. rewrite !in_range_cons, I1, I2, I3. repeat split; auto. f_equal. auto.
Qed.

Definition places (L : list (list nat)) : list (list nat) :=
  flat_map (fun b => map (place L b) (idxs (pick 0 L b))) (idxs (lens L)).
Lemma places_perm L : Permutation (places L) (idxs (tots L)).
Proof.
  apply NoDup_Permutation; [|apply idxs_NoDup|].
  - apply NoDup_flat_map; [apply idxs_NoDup| |].
    + intros b Hb. apply idxs_In in Hb. apply (NoDup_map_inv (offL L)). rewrite map_map.
      rewrite map_ext_in with (g := fun o => o); [rewrite map_id; apply idxs_NoDup|].
      intros o Ho. apply idxs_In in Ho. apply place_spec; auto.
    + intros a b x Ha Hb Hx Hx'. apply idxs_In in Ha. apply idxs_In in Hb.
      apply in_map_iff in Hx as [o [<- Ho]]. apply in_map_iff in Hx' as [o' [E Ho']].
      apply idxs_In in Ho. apply idxs_In in Ho'.
      destruct (place_spec _ _ _ Ha Ho) as [_ [<- _]]. destruct (place_spec _ _ _ Hb Ho') as [_ [<- _]]. congruence.
  - intros e. unfold places. rewrite in_flat_map, idxs_In. split.
    + intros [b [Hb H]]. apply in_map_iff in H as [o [<- Ho]]. apply idxs_In in Hb. apply idxs_In in Ho.
      apply place_spec; auto.
    + intros H. destruct (unplace_spec _ _ H) as [H1 [H2 H3]]. exists (blkL L e). split; [apply idxs_In; auto|].
      apply in_map_iff. exists (offL L e). split; auto. apply idxs_In; auto.
Qed.
Lemma sum_places (R : ring) (f : list nat -> R) L :
  sumf R f (idxs (tots L)) = sumf R (fun b => sumf R (fun o => f (place L b o)) (idxs (pick 0 L b))) (idxs (lens L)).
Proof.
  rewrite <- (sumf_perm _ f (places_perm L)). unfold places. rewrite sumf_flat_map. apply sumf_ext. intros b _.
  rewrite sumf_map. reflexivity.
Qed.

(** Which block a place belongs to. *)
Lemma inside_place L b b' o : in_range (lens L) b = true -> in_range (lens L) b' = true ->
  in_range (pick 0 L b) o = true ->
  inside (origin L b') (pick 0 L b') (place L b o) = true <-> b' = b.
Proof.
  unfold lens. revert b b' o; induction L as [|l L IH]; intros [|x b] [|x' b'] [|y o] H1 H2 H3; try discriminate; [cbn; tauto|].
  cbn [map] in *. apply in_range_cons in H1 as [H1 H1']. apply in_range_cons in H2 as [H2 H2'].
  cbn [pick] in H3. apply in_range_cons in H3 as [H3 H3'].
  cbn [origin pick place inside]. rewrite !andb_true_iff, IH by auto. rewrite Nat.leb_le, Nat.ltb_lt.
  split; [|intros [= -> ->]; split; [lia|reflexivity]].
  intros [[Ha Hb] ->]. f_equal.
  assert (L1 : located l (sum_list (firstn x l) + y) x y) by (repeat split; auto).
  assert (L2 : located l (sum_list (firstn x l) + y) x' (sum_list (firstn x l) + y - sum_list (firstn x' l)))
    by (repeat split; auto; lia).
  apply find_section_unique in L1. apply find_section_unique in L2. congruence.
Qed.

(** Concatenation of dimensions. *)
Lemma pick_app A (dflt : A) L1 L2 b1 b2 : length b1 = length L1 ->
  pick dflt (L1 ++ L2) (b1 ++ b2) = pick dflt L1 b1 ++ pick dflt L2 b2.
Proof. revert b1; induction L1 as [|l L IH]; intros [|x b] H; try discriminate; cbn; auto. rewrite IH; auto. Qed.
Lemma place_app L1 L2 b1 b2 o1 o2 : length b1 = length L1 -> length o1 = length L1 ->
  place (L1 ++ L2) (b1 ++ b2) (o1 ++ o2) = place L1 b1 o1 ++ place L2 b2 o2.
Proof. revert b1 o1; induction L1 as [|l L IH]; intros [|x b] [|y o] H H'; try discriminate; cbn; auto. rewrite IH; auto. Qed.
Lemma idxs_app s1 s2 : idxs (s1 ++ s2) = flat_map (fun a => map (app a) (idxs s2)) (idxs s1).
Proof.
  induction s1 as [|n s IH]; cbn [app idxs].
  - cbn [flat_map]. rewrite app_nil_r. rewrite map_ext with (g := fun x => x) by reflexivity. rewrite map_id. reflexivity.
  - rewrite IH. generalize (seq 0 n). intros l. induction l as [|i l IHl]; cbn [flat_map]; [reflexivity|].
    rewrite flat_map_app, <- IHl. f_equal. clear.
    induction (idxs s) as [|a m IHm]; cbn [flat_map map]; [reflexivity|].
    rewrite map_app, IHm, map_map. reflexivity.
Qed.

(** Permuting dimensions. *)
Definition is_perm (p : list nat) (n : nat) : Prop := Permutation p (seq 0 n).

Lemma gather_length A (d : A) p l : length (gather d p l) = length p.
Proof. apply map_length. Qed.
Lemma gather_nth A (d d' : A) p l k : k < length p -> nth k (gather d p l) d' = nth (nth k p 0) l d.
Proof.
  intros H. unfold gather. rewrite nth_indep with (d' := nth 0 l d) by (rewrite map_length; auto).
  rewrite (map_nth (fun j => nth j l d)). reflexivity.
Qed.
Lemma is_perm_length p n : is_perm p n -> length p = n.
Proof. intros H. apply Permutation_length in H. rewrite seq_length in H. auto. Qed.
Lemma is_perm_lt p n : is_perm p n -> forall k, k < length p -> nth k p 0 < n.
Proof.
  intros H k Hk. assert (In (nth k p 0) p) as Hi by (apply nth_In; auto).
  apply (Permutation_in _ H) in Hi. apply in_seq in Hi. lia.
Qed.
Lemma is_perm_NoDup p n : is_perm p n -> NoDup p.
Proof. intros H. eapply Permutation_NoDup; [apply Permutation_sym; eassumption|apply seq_NoDup]. Qed.
Lemma index_of_spec k p : In k p -> index_of k p < length p /\ nth (index_of k p) p 0 = k.
Proof.
  induction p as [|x p IH]; intros H; [destruct H|]. cbn. destruct (x =? k) eqn:E.
  - apply Nat.eqb_eq in E. split; [lia|auto].
  - apply Nat.eqb_neq in E. destruct H as [H|H]; [contradiction|]. destruct (IH H). split; [lia|auto].
Qed.
Lemma index_of_nth p k : NoDup p -> k < length p -> index_of (nth k p 0) p = k.
Proof.
  intros Hn Hk. destruct (@index_of_spec (nth k p 0) p) as [H1 H2]; [apply nth_In; auto|].
  rewrite (NoDup_nth p 0) in Hn. apply Hn; auto.
Qed.
Lemma inv_perm_length p : length (inv_perm p) = length p.
Proof. unfold inv_perm. rewrite map_length, seq_length. reflexivity. Qed.
Lemma inv_perm_nth p k : k < length p -> nth k (inv_perm p) 0 = index_of k p.
Proof.
  intros H. unfold inv_perm. rewrite nth_indep with (d' := index_of 0 p) by (rewrite map_length, seq_length; auto).
  rewrite (map_nth (fun j => index_of j p)). rewrite seq_nth by auto. reflexivity.
Qed.
Lemma nth_ext' A (d : A) l m : length l = length m -> (forall k, k < length l -> nth k l d = nth k m d) -> l = m.
Proof. intros H H'. eapply nth_ext; eauto. Qed.
Lemma gather_inv A (d : A) p l : is_perm p (length l) -> gather d (inv_perm p) (gather d p l) = l.
Proof.
  intros H. pose proof (is_perm_length H) as Hl. apply nth_ext' with (d := d).
  - rewrite gather_length, inv_perm_length. auto.
  - rewrite gather_length, inv_perm_length. intros k Hk. rewrite gather_nth by (rewrite inv_perm_length; auto).
    rewrite inv_perm_nth by auto.
    assert (In k p) as Hi. { apply (Permutation_in _ (Permutation_sym H)). apply in_seq. lia. }
    destruct (index_of_spec _ _ Hi) as [H1 H2]. rewrite gather_nth by auto. rewrite H2. reflexivity.
Qed.
Lemma gather_inv' A (d : A) p l : is_perm p (length l) -> gather d p (gather d (inv_perm p) l) = l.
Proof.
  intros H. pose proof (is_perm_length H) as Hl. apply nth_ext' with (d := d).
  - rewrite gather_length. auto.
  - rewrite gather_length. intros k Hk. rewrite gather_nth by auto.
    pose proof (is_perm_lt H Hk). rewrite gather_nth by (rewrite inv_perm_length; lia).
    rewrite inv_perm_nth by lia. rewrite index_of_nth; auto. eapply is_perm_NoDup; eauto.
Qed.
Lemma inv_perm_is_perm p n : is_perm p n -> is_perm (inv_perm p) n.
Proof.
  intros H. pose proof (is_perm_length H) as Hl. unfold is_perm. apply NoDup_Permutation_bis.
  - apply (NoDup_nth _ 0). rewrite inv_perm_length. intros i j Hi Hj.
    rewrite !inv_perm_nth by auto. intros E.
    assert (Hp : forall k, k < length p -> In k p) by (intros k Hk; apply (Permutation_in _ (Permutation_sym H)); apply in_seq; lia).
    destruct (index_of_spec _ _ (Hp i Hi)) as [_ <-]. destruct (index_of_spec _ _ (Hp j Hj)) as [_ <-]. rewrite E. reflexivity.
  - rewrite inv_perm_length, seq_length. lia.
  - intros x Hx. unfold inv_perm in Hx. apply in_map_iff in Hx as [k [<- Hk]]. apply in_seq in Hk. apply in_seq.
    assert (In k p) as Hi by (apply (Permutation_in _ (Permutation_sym H)); apply in_seq; lia).
    destruct (index_of_spec _ _ Hi). lia.
Qed.
Lemma in_range_gather p sh ix : is_perm p (length sh) -> length ix = length sh ->
  in_range (gather 0 p sh) (gather 0 p ix) = in_range sh ix.
Proof.
  intros H Hl. apply eq_true_iff_eq. rewrite !in_range_nth, !gather_length.
  pose proof (is_perm_length H) as Hp. split.
  - intros [_ H1]. split; auto. intros k Hk.
    assert (In k p) as Hi by (apply (Permutation_in _ (Permutation_sym H)); apply in_seq; lia).
    destruct (index_of_spec _ _ Hi) as [H2 H3]. specialize (H1 _ H2). rewrite !gather_nth in H1 by auto.
    rewrite H3 in H1. auto.
  - intros [_ H1]. split; auto. intros k Hk. rewrite !gather_nth by auto. apply H1. apply (is_perm_lt H Hk).
Qed.
Lemma pick_gather A (dflt : A) p L b : is_perm p (length L) -> length b = length L ->
  pick dflt (gather [] p L) (gather 0 p b) = gather dflt p (pick dflt L b).
Proof.
  intros H Hb. pose proof (is_perm_length H) as Hl.
  apply nth_ext' with (d := dflt); rewrite pick_length by (rewrite !gather_length; auto); rewrite !gather_length; auto.
  intros k Hk. rewrite pick_nth by (rewrite ?gather_length; auto). rewrite !gather_nth by auto.
  rewrite pick_nth; auto. apply (is_perm_lt H Hk).
Qed.
Lemma place_gather p L b o : is_perm p (length L) -> length b = length L -> length o = length L ->
  place (gather [] p L) (gather 0 p b) (gather 0 p o) = gather 0 p (place L b o).
Proof.
  intros H Hb Ho. pose proof (is_perm_length H) as Hl.
  apply nth_ext' with (d := 0); rewrite place_length by (rewrite !gather_length; auto); rewrite !gather_length; auto.
  intros k Hk. rewrite place_nth by (rewrite ?gather_length; auto). rewrite !gather_nth by auto.
  rewrite place_nth; auto. apply (is_perm_lt H Hk).
Qed.
Lemma map_gather A B (f : A -> B) (d : A) p l : map f (gather d p l) = gather (f d) p (map f l).
Proof. unfold gather. rewrite map_map. apply map_ext. intros k. symmetry. apply map_nth. Qed.

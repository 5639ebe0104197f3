(** Final forms of the arithmetic and permutation lemmas, examples and counterexamples. *)
From Verif Require Import Base Quantity QuantityProofs FlatMap SpecFlatMap FlatMapProofs Ring Index SpecIndex IndexProofs
  Dense BTensor SpecBTensor LegsProofs BTensorProofs BTensorThms BTensorThms2 BTensorEx BTensorArith SpecArith ArithProofs.
From Coq Require Import Permutation.
Set Implicit Arguments.

Section P.
  Variable G : abgroup.
  Variable R : ring.
  Add Ring Rr : (ring_th R).
  Implicit Types T : btensor G R.

  Lemma zdim_names r x k : names_dim r x k -> zdim r x = Ok k.
  Proof.
    intros [H1 [H2 H3]]. unfold zdim, pos_dim. destruct (x <? 0)%Z eqn:E; 
      [apply Z.ltb_lt in E|apply Z.ltb_ge in E].
    - replace (Z.of_nat r + x)%Z with (Z.of_nat k) by lia.
      assert (((0 <=? Z.of_nat k) && (Z.of_nat k <? Z.of_nat r))%Z = true) as -> by lia. rewrite Nat2Z.id. reflexivity.
    - replace x with (Z.of_nat k) by lia.
      assert (((0 <=? Z.of_nat k) && (Z.of_nat k <? Z.of_nat r))%Z = true) as -> by lia. rewrite Nat2Z.id. reflexivity.
  Qed.
  Lemma zdims_names r inp p : Forall2 (names_dim r) inp p -> rmapM (zdim r) inp = Ok p.
  Proof. induction 1 as [|x k l m H _ IH]; cbn; auto. rewrite (zdim_names H). cbn. rewrite IH. reflexivity. Qed.
  Lemma names_of_nat r p : Permutation p (seq 0 r) -> names_perm r (map Z.of_nat p) p.
  Proof.
    intros H. split; auto. assert (HL : forall k, In k p -> k < r) by (intros k Hk; apply (Permutation_in _ H), in_seq in Hk; lia).
    clear H. induction p as [|k p IH]; cbn; constructor.
    - assert (k < r) by (apply HL; left; auto). unfold names_dim. lia.
    - apply IH. intros j Hj. apply HL. right; auto.
  Qed.

  Lemma permute_thm T inp p D : valid T -> names_perm (b_rank T) inp p -> dense_form T D ->
    exists T', permute T inp = Ok T' /\ valid T' /\ b_rule T' = b_rule T /\
      legs T' = map (fun k => nth k (legs T) []) p /\ qlegs T' = map (fun k => nth k (qlegs T) []) p /\ dense_form T' (d_permute p D).
  Proof.
    intros HV [HN HP] HD. destruct (permute_spec inp HV (zdims_names HN) HP) as [T' [E [V' H']]]. exists T'. split; auto. split; auto.
    split; [apply H'|]. split; [apply H'|]. split; [apply H'|]. exact (permuted_dense HV HP H' HD).
  Qed.
  Lemma permute_inverse T inp p inp' p' : valid T -> names_perm (b_rank T) inp p -> names_perm (b_rank T) inp' p' ->
    (forall k, k < b_rank T -> nth (nth k p' 0) p 0 = k) ->
    exists T' T'', permute T inp = Ok T' /\ permute T' inp' = Ok T'' /\ same_tensor T T''.
  Proof.
    intros HV [HN HP] [HN' HP'] Hinv. destruct (permute_spec inp HV (zdims_names HN) HP) as [T' [E [V' H']]].
    assert (Hr : b_rank T' = b_rank T) by apply H'.
    destruct (@permute_spec G R T' inp' p' V') as [T'' [E2 [V2 H2]]]; rewrite ?Hr; auto. { apply zdims_names; auto. }
    exists T', T''. split; auto. split; auto.
    assert (p' = inv_perm p) as ->. 2: { apply permute_back with (p := p) (T1 := T'); auto. }
    pose proof (is_perm_length HP) as L. pose proof (is_perm_length HP') as L'.
    apply nth_ext' with (d := 0); rewrite ?inv_perm_length; [congruence|]. intros k Hk. rewrite inv_perm_nth by lia.
    rewrite <- (Hinv k) at 2 by lia. symmetry. apply index_of_nth; [eapply is_perm_NoDup; eauto|]. rewrite L. apply (is_perm_lt HP'). lia.
  Qed.

  (** transpose *)
  Lemma swap_perm r i j : i < r -> j < r -> is_perm (upd (upd (seq 0 r) i j) j i) r /\
    forall k, k < r -> nth k (upd (upd (seq 0 r) i j) j i) 0 = if k =? j then i else if k =? i then j else k.
  Proof.
    intros Hi Hj.
    assert (HU : forall (l : list nat) n a k, n < length l -> nth k (upd l n a) 0 = if k =? n then a else nth k l 0).
    { intros l n a k Hn. unfold upd. destruct (Nat.eqb_spec k n) as [->|Hk].
      - rewrite app_nth2; rewrite firstn_length_le by lia; [|lia]. rewrite Nat.sub_diag. reflexivity.
      - destruct (Nat.lt_ge_cases k n) as [H|H].
        + rewrite app_nth1 by (rewrite firstn_length_le; lia). rewrite <- (firstn_skipn n l) at 2. rewrite app_nth1; auto. rewrite firstn_length_le; lia.
        + rewrite app_nth2; rewrite firstn_length_le by lia; [|lia]. rewrite <- (firstn_skipn (S n) l) at 2.
          rewrite app_nth2; rewrite firstn_length_le by lia; [|lia]. destruct (k - n) eqn:E; [lia|]. cbn. f_equal. lia. }
    assert (HL : forall (l : list nat) n a, n < length l -> length (upd l n a) = length l).
    { intros l n a Hn. unfold upd. rewrite app_length. cbn [length]. rewrite firstn_length_le, skipn_length by lia. lia. }
    assert (HN : forall k, k < r -> nth k (upd (upd (seq 0 r) i j) j i) 0 = if k =? j then i else if k =? i then j else k).
    { intros k Hk. rewrite HU by (rewrite HL; rewrite seq_length; auto). rewrite HU by (rewrite seq_length; auto).
      destruct (k =? j); auto. destruct (k =? i); auto. rewrite seq_nth; auto. }
    assert (HLL : length (upd (upd (seq 0 r) i j) j i) = r) by (rewrite !HL; rewrite ?HL; rewrite seq_length; auto).
    split; auto. apply NoDup_Permutation_bis; [|rewrite seq_length; lia|].
    - apply (NoDup_nth _ 0). rewrite HLL. intros a b Ha Hb. rewrite !HN by auto.
      destruct (Nat.eqb_spec a j), (Nat.eqb_spec b j), (Nat.eqb_spec a i), (Nat.eqb_spec b i); lia.
    - intros x Hx. apply (In_nth _ _ 0) in Hx as [k [Hk <-]]. rewrite HLL in Hk. rewrite HN by auto. apply in_seq.
      destruct (k =? j), (k =? i); lia.
  Qed.
  Lemma transpose_thm T x y i j D : valid T -> names_dim (b_rank T) x i -> names_dim (b_rank T) y j -> dense_form T D ->
    exists T' p, transpose T x y = Ok T' /\ valid T' /\ Permutation p (seq 0 (b_rank T)) /\
      (forall k, k < b_rank T -> nth k p 0 = if k =? j then i else if k =? i then j else k) /\ dense_form T' (d_permute p D).
  Proof.
    intros HV Hx Hy HD. destruct (@swap_perm (b_rank T) i j) as [HP Hn]; [apply Hx|apply Hy|].
    destruct (permute_thm HV (names_of_nat _ HP) HD) as [T' [E [V' [_ [_ [_ D']]]]]].
    exists T', (upd (upd (seq 0 (b_rank T)) i j) j i). split; [|auto].
    unfold transpose. rewrite (zdim_names Hx), (zdim_names Hy). exact E.
  Qed.
  (** Subtracting a tensor with no block negates. *)
  Lemma sub_empty T : valid T -> exists out, bt_sub T (sparse_zeros_like T) ro = Ok out /\
    forall k o, bentry out k o = ropp (bentry T k o).
  Proof.
    intros HV. assert (V0 : valid (sparse_zeros_like T)).
    { destruct HV as [H1 _]. split; [exact H1|]. split; [intros ? ? []|constructor]. }
    destruct (add_exact (ropp ro) HV V0) as [out [E [_ [_ [_ H]]]]]; [repeat split|].
    exists out. split; [exact E|]. intros k o. rewrite H. cbn [sparse_zeros_like with_blocks b_blocks assoc leading forallb]. ring.
  Qed.
End P.

(** Counterexamples. *)
Definition exC : zt := with_blocks exA [([0; 0], dl [1; 2] [1; 2]%Z)].
Lemma exC_valid : valid exC. Proof. ex_valid. Qed.
(** A - B negates the block of A in front of all those of B. *)
Lemma sub_refuted : exists (a b : zt) Da Db Do out, valid a /\ valid b /\ same_meta a b /\ to_dense a = Ok Da /\ to_dense b = Ok Db /\
  bt_sub a b 1%Z = Ok out /\ to_dense out = Ok Do /\ elems Da = [1; 2; 0; 0; 0; 0; 0; 0; 0]%Z /\ elems Db = [0; 0; 0; 0; 0; 7; 0; 0; 8]%Z /\
  elems Do = [-1; -2; 0; 0; 0; -7; 0; 0; -8]%Z.
Proof.
  destruct (@add_exact z_group ring_Z exC exB (-1)%Z exC_valid exB_valid) as [out [E [M [V _]]]]; [repeat split|].
  destruct (to_dense_spec exC_valid) as [Da [EA _]]. destruct (to_dense_spec exB_valid) as [Db [EB _]].
  destruct (to_dense_spec V) as [Do [EO _]].
  exists exC, exB, Da, Db, Do, out. split; [apply exC_valid|]. split; [apply exB_valid|]. split; [repeat split|].
  split; auto. split; auto. split; [exact E|]. split; auto.
  assert (F1 : rmap elems (to_dense exC) = Ok [1; 2; 0; 0; 0; 0; 0; 0; 0]%Z) by (vm_compute; reflexivity).
  assert (F2 : rmap elems (to_dense exB) = Ok [0; 0; 0; 0; 0; 7; 0; 0; 8]%Z) by (vm_compute; reflexivity).
  assert (F3 : rmap elems (rbind (bt_add exC exB (-1)%Z) (@to_dense _ _)) = Ok [-1; -2; 0; 0; 0; -7; 0; 0; -8]%Z) by (vm_compute; reflexivity).
  rewrite EA in F1. rewrite EB in F2. rewrite E in F3. cbn [rbind] in F3. rewrite EO in F3. cbn in F1, F2, F3. 
  repeat split; congruence.
Qed.

(** Element-wise maps that do not fix zero. *)
Lemma elementwise_refuted : exists (T : zt) D, valid T /\ dense_form T D /\ ~ dense_form (bt_elementwise (fun _ : ring_Z => (1%Z : ring_Z)) T) (d_map (fun _ : ring_Z => (1%Z : ring_Z)) D).
Proof.
  destruct (to_dense_spec exA_valid) as [D [_ HD]]. exists exA, D. split; [apply exA_valid|]. split; auto.
  rewrite (elementwise_iff _ exA_valid HD). intros [H|H]; [discriminate|].
  specialize (H [0; 1] [0; 0] eq_refl eq_refl). apply H. reflexivity.
Qed.

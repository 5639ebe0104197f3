(** The truncation of block decompositions seen through dense forms. *)
From Verif Require Import Base Quantity QuantityProofs FlatMap SpecFlatMap FlatMapProofs Ring Index SpecIndex IndexProofs LegsProofs Dense BTensor SpecBTensor BTensorProofs ArithProofs BmmThms
  SpecChain SpecSvd BSvd SvdDense Truncate SpecTruncate TruncateProofs BTrunc SpecBTrunc BTruncProofs BTruncThms.
From Coq Require Import Permutation Sorting.Sorted.
Set Implicit Arguments.

Lemma section_lt l : forall c x, c < length l -> x < nth c l 0 -> sum_list (firstn c l) + x < sum_list l.
Proof.
  induction l as [|y l IH]; intros [|c] x H1 H2; cbn in *; try lia. specialize (IH c x). unfold sum_list in IH. lia.
Qed.
Section D.
  Context {G : abgroup} {R : ring}.
  Notation t := (btensor G R).
  Notation entry := (list nat * dense R)%type.
  Add Ring Rr : (ring_th R).
  Variable gtb : R -> R -> bool.
  Hypothesis HO : total_order gtb.
  Variable d : t.
  Variable v : R.
  Hypothesis Vd : valid d.
  Hypothesis Rd : b_rank d = 1.
  Hypothesis Dd : forall e, In e (b_blocks d) -> descending gtb (entries (snd e)).
  Notation l := (b_ss d).
  Notation l' := (new_leg gtb d v (b_ss d)).

  Lemma leg_of (T : t) : carries_d d T -> exists L, legs T = L ++ [l]. 
  Proof. intros H. destruct (last_leg Rd H) as (L & E & _). eauto. Qed.
  Lemma new_leg_nth b : b < length l -> nth b l' 0 = new_size gtb d v b (nth b l 0).
  Proof. intros H. unfold new_leg. rewrite nth_map_seq by auto. reflexivity. Qed.
  Lemma new_leg_le b : b < length l -> nth b l' 0 <= nth b l 0.
  Proof. intros H. rewrite new_leg_nth by auto. unfold new_size. destruct (kept gtb d v b) as [[|n]|] eqn:E; auto. apply (@kept_le G R gtb HO d v Vd Rd Dd) in E. auto. Qed.
  Lemma vec_entry (T : t) kl (D : dense R) c z : valid T -> legs T = [kl] -> dense_form T D -> c < length kl -> z < nth c kl 0 -> dv D [sum_list (firstn c kl) + z] = bentry T [c] [z].
  Proof. intros H1 H2 H3 H4 H5. exact (@last_entry G R T [] kl D [] [] c z H1 H2 H3 eq_refl eq_refl H4 H5). Qed.
  (** Entries of blocks that are kept. *)
  Lemma cut_entry (T T' : t) k0 b o : truncated gtb d v T T' -> NoDup (map fst (b_blocks T)) -> ~ emptied gtb d v b -> bentry T' (k0 ++ [b]) o = bentry T (k0 ++ [b]) o.
  Proof.
    intros (_ & _ & _ & _ & _ & A6 & A7 & A8) HN He. unfold bentry. destruct (assoc leqb (k0 ++ [b]) (b_blocks T)) as [x|] eqn:E.
    - apply assoc_nodup in E; auto. assert (Hs : section_of (k0 ++ [b], x) = b) by (unfold section_of; cbn; apply last_last).
      pose proof (A7 _ E ltac:(rewrite Hs; auto)) as K. destruct (cut_block gtb d v (k0 ++ [b], x)) as [k y] eqn:EC. assert (Ek : k = k0 ++ [b]) by (pose proof (cut_key gtb d v (k0 ++ [b], x)) as F; rewrite EC in F; auto). subst k.
      apply assoc_nodup in K; auto. rewrite K. unfold cut_block in EC. destruct (kept gtb d v (section_of (k0 ++ [b], x))) as [[|n]|]; injection EC as <-; reflexivity.
    - destruct (assoc leqb (k0 ++ [b]) (b_blocks T')) as [y|] eqn:E'; auto. exfalso. apply assoc_nodup in E'; auto. destruct (A6 _ E') as (e & He' & Ee).
      assert (Ek : fst e = k0 ++ [b]) by (rewrite <- (cut_key gtb d v e), <- Ee; auto). destruct e as [k x]. cbn in Ek. subst k. apply (@assoc_nodup _ (b_blocks T)) in He'; auto. congruence.
  Qed.
  (** The truncated tensor, entry by entry. *)
  Theorem cut_dense (T T' : t) D D' i b o : carries_d d T -> truncated gtb d v T T' -> valid T' -> dense_form T D -> dense_form T' D' ->
    in_range (removelast (dsh D)) i = true -> b < length l -> o < nth b l' 0 -> ~ emptied gtb d v b ->
    dv D' (i ++ [sum_list (firstn b l') + o]) = dv D (i ++ [sum_list (firstn b l) + o]).
  Proof.
    intros HT HC VT' FD FD' Hi Hb Ho He. destruct (leg_of HT) as (L & EL). assert (EL' : legs T' = L ++ [l']). { pose proof HC as (_ & _ & _ & _ & -> & _). rewrite EL, removelast_last, last_last. reflexivity. }
    destruct HT as (VT & _ & _). rewrite (proj1 FD), EL, map_app in Hi. cbn [map] in Hi. rewrite removelast_last in Hi. change (map sum_list L) with (tots L) in Hi. destruct (unplace_spec L i Hi) as (B1 & O1 & P1). rewrite <- P1.
    rewrite (@last_entry G R T' L l' D' _ _ b o VT' EL' FD' B1 O1); [|rewrite new_leg_length; auto|auto].
    rewrite (@last_entry G R T L l D _ _ b o VT EL FD B1 O1 Hb); [|pose proof (new_leg_le Hb); lia].
    apply cut_entry; auto. apply sorted_nodup, VT.
  Qed.
  (** The values: zero in emptied sections. *)
  Theorem cut_values d' Dd0 Dd' b o : truncated gtb d v d d' -> valid d' -> (forall e, In e (b_blocks d') -> ~ emptied gtb d v (section_of e)) -> dense_form d Dd0 -> dense_form d' Dd' ->
    b < length l -> o < nth b l' 0 -> (~ emptied gtb d v b -> dv Dd' [sum_list (firstn b l') + o] = dv Dd0 [sum_list (firstn b l) + o]) /\ (emptied gtb d v b -> dv Dd' [sum_list (firstn b l') + o] = rz).
  Proof.
    intros HC V' HE F F' Hb Ho. pose proof (d_carries Vd Rd) as HT. split.
    - intros He. apply (@cut_dense d d' Dd0 Dd' [] b o HT HC V' F F'); auto. rewrite (proj1 F), (d_legs Vd Rd). reflexivity.
    - intros He. assert (EL' : legs d' = [l']). { pose proof HC as (_ & _ & _ & _ & -> & _). rewrite (d_legs Vd Rd). reflexivity. }
      rewrite (@vec_entry d' l' Dd' b o V' EL' F'); [|rewrite new_leg_length; auto|auto]. unfold bentry. cbn [app].
      destruct (assoc leqb [b] (b_blocks d')) as [y|] eqn:E; auto. exfalso. apply assoc_nodup in E; [|apply sorted_nodup, V']. apply (HE _ E). exact He.
  Qed.
  (** The values of [d], section by section. *)
  Lemma d_at Dd0 b o x : dense_form d Dd0 -> assoc leqb [b] (b_blocks d) = Some x -> o < nth b l 0 -> dv Dd0 [sum_list (firstn b l) + o] = nth o (entries x) rz /\ length (entries x) = nth b l 0 /\ b < length l.
  Proof.
    intros F E Ho. pose proof E as E0. apply assoc_nodup in E; [|apply sorted_nodup, Vd]. destruct (d_block Vd Rd _ E) as (c & E1 & E2 & E3). cbn [fst snd] in *. injection E1 as <-.
    rewrite (@vec_entry d l Dd0 b o Vd (d_legs Vd Rd) F E2 Ho). unfold bentry. cbn [app]. rewrite E0. split; [|split; auto].
    - rewrite <- (entries_values _ E3). unfold values. rewrite E3. cbn [nth]. rewrite (nth_indep _ rz (dv x [0])) by (rewrite map_length, seq_length; auto). rewrite (map_nth (fun i => dv x [i])), seq_nth by auto. reflexivity.
    - apply entries_len. auto.
  Qed.
  Lemma d_none Dd0 b o : dense_form d Dd0 -> assoc leqb [b] (b_blocks d) = None -> b < length l -> o < nth b l 0 -> dv Dd0 [sum_list (firstn b l) + o] = rz.
  Proof.
    intros F E Hb Ho. rewrite (@vec_entry d l Dd0 b o Vd (d_legs Vd Rd) F Hb Ho). unfold bentry. cbn [app]. rewrite E. reflexivity.
  Qed.
  Lemma above_prefix k x o : In (k, x) (b_blocks d) -> o < length (entries x) -> gtb (nth o (entries x) rz) v = (o <? above gtb v (entries x)).
  Proof.
    intros Hx. pose proof (Dd _ Hx) as HD. cbn [snd] in HD. revert HD. generalize (entries x). clear Hx. intros es HD Ho. destruct (split_desc HO v HD) as [S1 S2].
    assert (Hn : above gtb v es <= length es) by (rewrite <- (lower_bound_count HO v HD); apply lower_bound_le). revert S1 S2 Hn. generalize (above gtb v es). intros n S1 S2 Hn.
    assert (EN : nth o es rz = nth o (firstn n es ++ skipn n es) rz) by (rewrite firstn_skipn; reflexivity). destruct (Nat.ltb_spec o n) as [H|H].
    - assert (K : In (nth o es rz) (filter (fun y => gtb y v) es)); [|apply filter_In in K; tauto]. rewrite S1, EN. rewrite app_nth1 by (rewrite firstn_length; lia). apply nth_In. rewrite firstn_length. lia.
    - assert (K : In (nth o es rz) (filter (fun y => negb (gtb y v)) es)); [|apply filter_In in K as [_ K]; apply negb_true_iff in K; exact K]. rewrite S2, EN. rewrite app_nth2; rewrite firstn_length, Nat.min_l by lia; [|lia]. apply nth_In. rewrite skipn_length. lia.
  Qed.
  (** The truncated product. *)
  Theorem cut_product (U V d' U' V' : t) DU Dd0 DV DU' Dd' DV' i j : carries_d d U -> carries_d d V ->
    truncated gtb d v d d' -> valid d' -> (forall e, In e (b_blocks d') -> ~ emptied gtb d v (section_of e)) ->
    truncated gtb d v U U' -> valid U' -> truncated gtb d v V V' -> valid V' ->
    dense_form U DU -> dense_form d Dd0 -> dense_form V DV -> dense_form U' DU' -> dense_form d' Dd' -> dense_form V' DV' ->
    in_range (removelast (dsh DU)) i = true -> in_range (removelast (dsh DV)) j = true ->
    sumf R (fun c => rmul (rmul (dv DU' (i ++ [c])) (dv Dd' [c])) (rconj (dv DV' (j ++ [c])))) (seq 0 (sum_list l')) = restricted_product gtb (sum_list l) DU Dd0 DV v i j.
  Proof.
    intros HU HV Cd Vd' He CU VU' CV VV' FU Fd FV FU' Fd' FV' Hi Hj. unfold restricted_product. rewrite !sum_sections. rewrite new_leg_length. apply sumf_ext. intros b Hb. apply in_seq in Hb. destruct Hb as [_ Hb]. cbn [plus] in Hb.
    assert (NL : nth b l' 0 <= nth b l 0) by (apply new_leg_le; auto).
    destruct (assoc leqb [b] (b_blocks d)) as [x|] eqn:E.
    - assert (Hx : In ([b], x) (b_blocks d)) by (apply assoc_nodup in E; [auto|apply sorted_nodup, Vd]).
      assert (Ek : kept gtb d v b = Some (above gtb v (entries x))) by (unfold kept; rewrite E; reflexivity).
      destruct (Nat.eq_dec (above gtb v (entries x)) 0) as [Z|Z].
      + assert (Em : emptied gtb d v b) by (unfold emptied; rewrite Ek, Z; auto).
        rewrite sumf_zero. 2: { intros o Ho. apply in_seq in Ho. destruct (@cut_values d' Dd0 Dd' b o Cd Vd' He Fd Fd' Hb ltac:(lia)) as [_ K]. rewrite (K Em). ring. }
        symmetry. apply sumf_zero. intros o Ho. apply in_seq in Ho. destruct (@d_at Dd0 b o x Fd E ltac:(lia)) as (-> & EL & _). rewrite (@above_prefix [b] x o Hx) by lia. rewrite Z. reflexivity.
      + assert (Em : ~ emptied gtb d v b) by (unfold emptied; rewrite Ek; congruence).
        assert (El : nth b l' 0 = above gtb v (entries x)) by (rewrite new_leg_nth by auto; unfold new_size; rewrite Ek; destruct (above gtb v (entries x)); [lia|auto]).
        replace (seq 0 (nth b l 0)) with (seq 0 (nth b l' 0) ++ seq (nth b l' 0) (nth b l 0 - nth b l' 0)) by (pose proof (seq_app (nth b l' 0) (nth b l 0 - nth b l' 0) 0) as SA; cbn [plus] in SA; rewrite <- SA; f_equal; lia).
        rewrite sumf_app. rewrite (sumf_zero _ _ (seq (nth b l' 0) _)).
        2: { intros o Ho. apply in_seq in Ho. destruct (@d_at Dd0 b o x Fd E ltac:(lia)) as (-> & EL & _). rewrite (@above_prefix [b] x o Hx) by lia. rewrite (proj2 (Nat.ltb_ge _ _)) by lia. reflexivity. }
        rewrite radd_0_r. apply sumf_ext. intros o Ho. apply in_seq in Ho. destruct (@d_at Dd0 b o x Fd E ltac:(lia)) as (EV & EL & _).
        replace (gtb (dv Dd0 [sum_list (firstn b l) + o]) v) with true. 2: { rewrite EV, (@above_prefix [b] x o Hx) by lia. symmetry. apply Nat.ltb_lt. lia. }
        destruct (@cut_values d' Dd0 Dd' b o Cd Vd' He Fd Fd' Hb ltac:(lia)) as [K _]. rewrite (K Em).
        rewrite (@cut_dense U U' DU DU' i b o HU CU VU' FU FU' Hi Hb) by (auto; lia). rewrite (@cut_dense V V' DV DV' j b o HV CV VV' FV FV' Hj Hb) by (auto; lia). reflexivity.
    - assert (Em : ~ emptied gtb d v b) by (unfold emptied, kept; rewrite E; discriminate).
      rewrite sumf_zero. 2: { intros o Ho. apply in_seq in Ho. destruct (@cut_values d' Dd0 Dd' b o Cd Vd' He Fd Fd' Hb ltac:(lia)) as [K _]. rewrite (K Em), (@d_none Dd0 b o Fd E Hb) by lia. ring. }
      symmetry. apply sumf_zero. intros o Ho. apply in_seq in Ho. rewrite (@d_none Dd0 b o Fd E Hb) by lia. destruct (gtb rz v); [ring|auto].
  Qed.
  (** Columns of sections that are kept stay orthonormal. *)
  Theorem cut_orthonormal (U U' : t) DU DU' : carries_d d U -> truncated gtb d v U U' -> valid U' -> dense_form U DU -> dense_form U' DU' ->
    tensor_orthonormal (removelast (dsh DU)) (sum_list l) DU ->
    forall b o b' o', b < length l -> b' < length l -> o < nth b l' 0 -> o' < nth b' l' 0 -> ~ emptied gtb d v b -> ~ emptied gtb d v b' ->
    sumf R (fun i => rmul (rconj (dv DU' (i ++ [sum_list (firstn b l') + o]))) (dv DU' (i ++ [sum_list (firstn b' l') + o']))) (idxs (removelast (dsh DU'))) = if (b =? b') && (o =? o') then ro else rz.
  Proof.
    intros HU CU VU' FU FU' HI b o b' o' Hb Hb' Ho Ho' He He'.
    assert (Es : removelast (dsh DU') = removelast (dsh DU)).
    { rewrite (proj1 FU'), (proj1 FU). pose proof CU as (_ & _ & _ & _ & -> & _). destruct (leg_of HU) as (L & ->). rewrite removelast_last, last_last, !map_app. cbn [map]. rewrite !removelast_last. reflexivity. }
    pose proof (new_leg_le Hb) as N1. pose proof (new_leg_le Hb') as N2. rewrite Es.
    assert (LT : forall c x, c < length l -> x < nth c l 0 -> sum_list (firstn c l) + x < sum_list l).
    { intros c x Hc Hx. apply section_lt; auto. }
    rewrite sumf_ext with (g := fun i => rmul (rconj (dv DU (i ++ [sum_list (firstn b l) + o]))) (dv DU (i ++ [sum_list (firstn b' l) + o']))).
    2: { intros i Hi. apply idxs_In in Hi. rewrite (@cut_dense U U' DU DU' i b o), (@cut_dense U U' DU DU' i b' o'); auto. }
    rewrite HI by (apply LT; auto; lia). destruct (Nat.eqb_spec (sum_list (firstn b l) + o) (sum_list (firstn b' l) + o')) as [E|E].
    - assert (Z1 : located l (sum_list (firstn b l) + o) b o) by (split; [auto|split; auto; lia]). assert (Z2 : located l (sum_list (firstn b l) + o) b' o') by (split; [auto|split; auto; lia]).
      apply find_section_unique in Z1, Z2. rewrite Z1 in Z2. injection Z2 as -> ->. rewrite !Nat.eqb_refl. reflexivity.
    - destruct (Nat.eqb_spec b b') as [->|]; auto. destruct (Nat.eqb_spec o o') as [->|]; auto. congruence.
  Qed.
End D.

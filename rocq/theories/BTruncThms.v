(** Theorems: the truncation of block decompositions. *)
From Verif Require Import Base Quantity QuantityProofs FlatMap SpecFlatMap FlatMapProofs Ring Index SpecIndex IndexProofs LegsProofs Dense BTensor SpecBTensor BTensorProofs ArithProofs BSvd Truncate SpecTruncate TruncateProofs BTrunc SpecBTrunc BTruncProofs.
From Coq Require Import Permutation Sorting.Sorted.
Set Implicit Arguments.

(** * Order of the block lists *)
Section Order.
  Context {R : ring}.
  Notation entry := (list nat * dense R)%type.
  Definition fine (b : nat) (l : list entry) : Prop :=
    (forall l0 e, l = l0 ++ [e] -> back e <> b) \/ (forall e e', In e l -> In e' l -> back e = b -> back e' = b -> e = e').
  Lemma sorted_sub (l m : list entry) : subl l m -> sorted lexb m -> sorted lexb l.
  Proof.
    unfold sorted. induction 1 as [|x l m H IH|x l m H IH]; intros HS; auto; inversion HS; subst; auto. constructor; auto.
    rewrite Forall_forall in *. intros e He. apply H3. eapply subl_in; eauto.
  Qed.
  Lemma sorted_keys (l m : list entry) : map fst l = map fst m -> sorted lexb l -> sorted lexb m.
  Proof.
    unfold sorted. revert m. induction l as [|x l IH]; intros [|y m] E HS; try discriminate; auto. cbn in E. injection E as E1 E2. inversion HS; subst.
    constructor; auto. rewrite Forall_forall in *. intros e He. assert (Hk : In (fst e) (map fst l)) by (rewrite E2; apply in_map; auto).
    apply in_map_iff in Hk as (e0 & Ee & He0). rewrite <- E1, <- Ee. auto.
  Qed.
  Lemma snoc_dec A (l : list A) : l = [] \/ exists l0 e, l = l0 ++ [e].
  Proof. destruct l using rev_ind; eauto. Qed.
  Lemma rm_fine b (l : list entry) : sorted lexb l -> fine b l -> subl (rm b [] l) l /\ forall d, last (rm b [] l) d = last l d.
  Proof.
    intros HS HF. destruct (snoc_dec l) as [->|(l0 & x & ->)]; [split; [apply subl_refl|auto]|].
    destruct (Nat.eq_dec (back x) b) as [Hx|Hx].
    - destruct HF as [HF|HF]; [exfalso; eapply HF; eauto|]. rewrite rm_none; [split; [apply subl_refl|auto]|].
      intros e He Hb. assert (E : e = x) by (apply HF; auto; apply in_app_iff; [left|right; left]; auto). subst e.
      apply sorted_nodup in HS. rewrite map_app in HS. cbn [map] in HS. apply NoDup_remove_2 in HS. apply HS. rewrite app_nil_r. apply in_map. auto.
    - assert (K : forall d, l0 ++ [x] <> [] -> back (last (l0 ++ [x]) d) <> b) by (intros d _; rewrite last_last; auto).
      split; [apply (@rm_sub R b x _ (l0 ++ [x]) [] (le_n _)); auto|]. intros d. apply (@rm_sub R b d _ (l0 ++ [x]) [] (le_n _)); auto.
  Qed.
  Lemma rm_app b (l0 : list entry) x : exists l1 y, rm b [] (l0 ++ [x]) = l1 ++ [y].
  Proof.
    destruct (snoc_dec (rm b [] (l0 ++ [x]))) as [E|H]; auto. exfalso. destruct l0 as [|y [|z l0]]; cbn in E; destruct (back _ =? b); try discriminate.
  Qed.
  Lemma fine_rm b c (l : list entry) : sorted lexb l -> fine b l -> fine c l -> fine c (rm b [] l).
  Proof.
    intros HS Hb Hc. destruct (rm_fine HS Hb) as [S1 S2]. destruct Hc as [Hc|Hc].
    - left. intros l1 e E. destruct (snoc_dec l) as [->|(l0 & x & ->)]; [destruct l1; discriminate|]. specialize (S2 x). rewrite E, !last_last in S2. subst e. eapply Hc; eauto.
    - right. intros e e' He He'. apply Hc; eapply subl_in; eauto.
  Qed.
  Lemma fine_map c b n (l : list entry) : fine c l -> fine c (map (trim1 b n) l).
  Proof.
    assert (HB : forall e : entry, back (trim1 b n e) = back e) by (intros; unfold back; rewrite trim1_key; auto).
    intros [H|H]; [left|right].
    - intros l0 e E. destruct (snoc_dec l) as [->|(l1 & x & ->)]; [destruct l0; discriminate|]. rewrite map_app in E. apply app_inj_tail in E as [_ <-]. rewrite HB. eapply H; eauto.
    - intros e e' He He'. apply in_map_iff in He as (a & <- & Ha). apply in_map_iff in He' as (a' & <- & Ha'). rewrite !HB. intros E E'. f_equal. auto.
  Qed.
  Context {G : abgroup}.
  Lemma fold_sorted nd steps : forall U : btensor G R, sorted lexb (b_blocks U) -> (forall b, In (b, 0) steps -> fine b (b_blocks U)) ->
    sorted lexb (b_blocks (fold_left (unit_step nd) steps U)).
  Proof.
    induction steps as [|[b n] r IH]; intros U HS HF; auto. cbn [fold_left]. apply IH; unfold unit_step; cbn [fst snd]; destruct (Nat.eqb_spec n 0) as [->|En]; cbn [with_blocks b_blocks].
    - destruct (@rm_fine b (b_blocks U)) as [S1 _]; auto; [apply HF; left; auto|]. eapply sorted_sub; eauto.
    - apply sorted_keys with (l := b_blocks U); auto. rewrite map_map. symmetry. apply map_ext. intros. apply trim1_key.
    - intros c Hc. apply fine_rm; auto; apply HF; [left; auto|right; auto].
    - intros c Hc. apply fine_map, HF. right; auto.
  Qed.
End Order.

(** * Values *)
Section Values.
  Context {R : ring}.
  Variable gtb : R -> R -> bool.
  Hypothesis HO : total_order gtb.
  Lemma entries_values (x : dense R) n : dsh x = [n] -> values x = entries x.
  Proof.
    intros E. unfold values, entries. rewrite E. cbn [nth idxs map]. generalize (seq 0 n). induction l as [|a l IH]; [reflexivity|]. cbn. f_equal. exact IH.
  Qed.
  Lemma gt_le x y v : gtb x v = false -> gtb y x = false -> gtb y v = false.
  Proof.
    intros H1 H2. destruct (gtb y v) eqn:E; auto. exfalso. destruct (gtb v x) eqn:E2.
    - rewrite (gt_trans HO _ _ _ E E2) in H2. discriminate.
    - rewrite (gt_total HO _ _ H1 E2) in H2. congruence.
  Qed.
  Lemma desc_cons x l : descending gtb (x :: l) <-> (forall y, In y l -> gtb y x = false) /\ descending gtb l.
  Proof.
    split.
    - intros H. split.
      + intros y Hy. destruct (In_nth _ _ rz Hy) as (k & Hk & <-). apply (H 0 (S k)); cbn; lia.
      + intros i j Hi Hj. apply (H (S i) (S j)); cbn; lia.
    - intros [H1 H2] [|i] [|j] Hi Hj; try lia; cbn in *; [apply H1, nth_In; lia|apply H2; lia].
  Qed.
  Lemma filter_none A (p : A -> bool) l : (forall a, In a l -> p a = false) -> filter p l = [].
  Proof. induction l as [|a l IH]; intros H; auto. cbn. rewrite H by (left; auto). apply IH. intros; apply H; right; auto. Qed.
  Lemma lower_bound_above v l : descending gtb l -> firstn (lower_bound_impl2 gtb l v) l = filter (fun x => gtb x v) l.
  Proof.
    induction l as [|x l IH]; intros H; auto. apply desc_cons in H as [H1 H2]. cbn [lower_bound_impl2 filter]. destruct (gtb x v) eqn:E.
    - cbn [firstn]. f_equal. auto.
    - symmetry. apply filter_none. intros y Hy. eapply gt_le; eauto.
  Qed.
  Lemma lower_bound_le v l : lower_bound_impl2 gtb l v <= length l.
  Proof. induction l as [|x l IH]; cbn; auto. destruct (gtb x v); lia. Qed.
  Lemma lower_bound_count v l : descending gtb l -> lower_bound_impl2 gtb l v = above gtb v l.
  Proof. intros H. unfold above. rewrite <- lower_bound_above, firstn_length by auto. pose proof (lower_bound_le v l). lia. Qed.
  Lemma insert_perm x l : Permutation (insert_desc gtb x l) (x :: l).
  Proof. induction l as [|y l IH]; cbn; auto. destruct (gtb x y); auto. rewrite IH. apply perm_swap. Qed.
  Lemma sort_perm l : Permutation (sort_desc gtb l) l.
  Proof. induction l as [|x l IH]; cbn; auto. rewrite insert_perm, IH. auto. Qed.
  Lemma insert_desc_ok x l : descending gtb l -> descending gtb (insert_desc gtb x l).
  Proof.
    induction l as [|y l IH]; intros H; [intros i j Hi Hj; cbn in Hj; lia|]. cbn. apply desc_cons in H as [H1 H2]. destruct (gtb x y) eqn:E.
    - apply desc_cons. split; [|apply desc_cons; auto]. intros z [<-|Hz].
      + destruct (gtb y x) eqn:E2; auto. pose proof (gt_trans HO _ _ _ E E2) as K. rewrite (gt_irrefl HO) in K. discriminate.
      + specialize (H1 z Hz). destruct (gtb z x) eqn:E2; auto. rewrite (gt_trans HO _ _ _ E2 E) in H1. discriminate.
    - apply desc_cons. split; auto. intros z Hz. apply (Permutation_in _ (insert_perm x l)) in Hz as [<-|Hz]; auto.
  Qed.
  Lemma sort_desc_ok l : descending gtb (sort_desc gtb l).
  Proof. induction l as [|x l IH]; cbn; [intros i j Hi Hj; cbn in Hj; lia|]. apply insert_desc_ok. auto. Qed.
End Values.

(** * The result of the truncation *)
Section Main.
  Context {G : abgroup} {R : ring}.
  Notation t := (btensor G R).
  Notation entry := (list nat * dense R)%type.
  Variable gtb : R -> R -> bool.
  Hypothesis HO : total_order gtb.
  Variable d : t.
  Variable v : R.
  Hypothesis Vd : valid d.
  Hypothesis Rd : b_rank d = 1.
  Hypothesis Dd : forall e, In e (b_blocks d) -> descending gtb (entries (snd e)).

  Lemma d_legs : legs d = [b_ss d].
  Proof.
    destruct Vd as [[M1 [M2 _]] _]. unfold legs. rewrite Rd in M1. destruct (b_sbd d) as [|m [|]]; try discriminate. cbn in *. rewrite firstn_all2 by lia. auto.
  Qed.
  Lemma d_block e : In e (b_blocks d) -> exists c, fst e = [c] /\ c < length (b_ss d) /\ dsh (snd e) = [nth c (b_ss d) 0].
  Proof.
    intros He. destruct e as [k x]. destruct Vd as [M [B _]]. destruct (B _ _ He) as [[HR _] HS]. rewrite <- (legs_lens M), d_legs in HR. rewrite d_legs in HS. cbn [lens map] in HR.
    destruct k as [|c [|]]; try discriminate; [|cbn in HR; rewrite andb_false_r in HR; discriminate]. exists c. cbn in *. split; auto. split; auto. apply andb_prop in HR as [HR _]. apply Nat.ltb_lt in HR. auto.
  Qed.
  Let steps := map (step_of gtb v) (rev (b_blocks d)).
  Lemma entries_len (x : dense R) n : dsh x = [n] -> length (entries x) = n.
  Proof. intros E. rewrite <- (entries_values _ E). unfold values. rewrite E, map_length, seq_length. auto. Qed.
  Lemma step_val e : In e (b_blocks d) -> exists c, fst e = [c] /\ c < length (b_ss d) /\ step_of gtb v e = (c, above gtb v (entries (snd e))) /\ above gtb v (entries (snd e)) <= nth c (b_ss d) 0.
  Proof.
    intros He. destruct (d_block e He) as (c & E1 & E2 & E3). exists c. split; auto. split; auto. unfold step_of, back. rewrite E1. cbn [last].
    rewrite (entries_values _ E3). rewrite lower_bound_count by auto. split; auto. rewrite <- (lower_bound_count HO v (Dd e He)). rewrite <- (entries_len _ E3). apply lower_bound_le.
  Qed.
  Lemma steps_nodup : NoDup (map fst steps).
  Proof.
    unfold steps. rewrite map_map, map_rev. apply (Permutation_NoDup (Permutation_rev _)).
    assert (HN : NoDup (map fst (b_blocks d))) by (apply sorted_nodup, Vd). assert (K : forall e, In e (b_blocks d) -> fst e = [fst (step_of gtb v e)]).
    { intros e He. destruct (d_block e He) as (c & E1 & _). unfold step_of, back. rewrite E1. reflexivity. }
    revert HN K. generalize (b_blocks d). induction l as [|e l IH]; intros HN K; [constructor|]. cbn [map] in *. inversion HN; subst. constructor; [|apply IH; auto; intros; apply K; right; auto].
    intros Hi. apply H1. apply in_map_iff in Hi as (e' & E & He'). rewrite (K e) by (left; auto). rewrite <- E, <- K by (right; auto). apply in_map; auto.
  Qed.
  Lemma look_kept b : look steps b = kept gtb d v b.
  Proof.
    unfold kept. destruct (assoc leqb [b] (b_blocks d)) as [x|] eqn:E; cbn [option_map].
    - apply assoc_nodup in E; [|apply sorted_nodup, Vd]. apply look_In; [apply steps_nodup|]. unfold steps. apply in_map_iff. exists ([b], x). rewrite <- in_rev. split; auto.
      destruct (step_val _ E) as (c & E1 & _ & -> & _). cbn in E1. injection E1 as ->. reflexivity.
    - apply look_None. intros Hi. unfold steps in Hi. rewrite map_map in Hi. apply in_map_iff in Hi as (e & E1 & He). rewrite <- in_rev in He.
      destruct (step_val _ He) as (c & E2 & _ & E3 & _). rewrite E3 in E1. cbn in E1. subst c. destruct e as [k x]. cbn in E2. subst k.
      apply (@assoc_nodup _ (b_blocks d)) in He; [congruence|apply sorted_nodup, Vd].
  Qed.
  Lemma steps_lt s : In s steps -> fst s < length (b_ss d).
  Proof. unfold steps. intros H. apply in_map_iff in H as (e & <- & He). rewrite <- in_rev in He. destruct (step_val _ He) as (c & _ & E & -> & _). auto. Qed.
  Lemma kept_le b n : kept gtb d v b = Some n -> n <= nth b (b_ss d) 0.
  Proof.
    unfold kept. destruct (assoc leqb [b] (b_blocks d)) as [x|] eqn:E; cbn [option_map]; [|discriminate]. intros [= <-].
    apply assoc_nodup in E; [|apply sorted_nodup, Vd]. destruct (step_val _ E) as (c & E1 & _ & _ & H). cbn in E1. injection E1 as ->. exact H.
  Qed.
  Lemma ss_new : fold_left ss_step steps (b_ss d) = new_leg gtb d v (b_ss d).
  Proof.
    rewrite ss_fold; [|apply steps_lt|apply steps_nodup]. unfold new_leg, new_size. apply map_ext. intros b. rewrite look_kept. reflexivity.
  Qed.

  (** A tensor with the last dimension of [d]. *)
  Definition carries_d (U : t) : Prop := valid U /\ 1 <= b_rank U /\ last (legs U) [] = b_ss d.
  Lemma last_leg (U : t) : carries_d U -> exists L, legs U = L ++ [b_ss d] /\ b_sbd U = lens L ++ [length (b_ss d)] /\ b_ss U = concat L ++ b_ss d.
  Proof.
    intros ([M _] & R1 & El). destruct (snoc_dec (legs U)) as [E|(L & l & E)].
    - pose proof (legs_length M) as K. rewrite E in K. cbn in K. lia.
    - rewrite E, last_last in El. subst l. exists L. split; auto. pose proof (legs_lens M) as K. rewrite E in K. unfold lens in *. rewrite map_app in K. split; [symmetry; exact K|].
      destruct M as (_ & M2 & _). unfold legs in E. rewrite <- (concat_unpack _ _ M2), E, concat_app. cbn. rewrite app_nil_r. reflexivity.
  Qed.
  Lemma unit_block (U : t) e : carries_d U -> In e (b_blocks U) -> exists k0 b, fst e = k0 ++ [b] /\ section_of e = b /\ b < length (b_ss d) /\ last (dsh (snd e)) 0 = nth b (b_ss d) 0 /\
    removelast (dsh (snd e)) = pick 0 (removelast (legs U)) k0.
  Proof.
    intros HU He. destruct (last_leg HU) as (L & E1 & E2 & E3). destruct HU as ([M [B _]] & _). destruct e as [k x]. destruct (B _ _ He) as [[HR _] HS]. cbn [fst snd].
    rewrite E2 in HR. destruct (snoc_dec k) as [->|(k0 & b & ->)]; [destruct (lens L); discriminate|]. exists k0, b. split; auto. unfold section_of. cbn [fst]. rewrite last_last. split; auto.
    pose proof (in_range_length _ _ HR) as El. rewrite !app_length in El. cbn in El. unfold lens in El. rewrite map_length in El.
    rewrite E1, pick_app in HS by lia. cbn [pick] in HS. rewrite HS. rewrite last_last, removelast_last. rewrite E1, removelast_last. split; [|auto].
    rewrite in_range_app in HR by (unfold lens; rewrite map_length; lia). apply andb_prop in HR as [_ HR]. cbn in HR. rewrite andb_true_r in HR. apply Nat.ltb_lt in HR. auto.
  Qed.
  Lemma trim_cut (U : t) e : carries_d U -> In e (b_blocks U) -> trim steps e = cut_block gtb d v e.
  Proof.
    intros HU He. unfold trim, cut_block. change (section_of e) with (back e). rewrite look_kept. destruct (kept gtb d v (back e)) as [[|n]|] eqn:E; auto.
    unfold first_n. destruct (unit_block e HU He) as (k0 & b & _ & E2 & _ & E3 & _). apply kept_le in E. change (section_of e) with (back e) in E2. rewrite E2 in E. rewrite E3, Nat.min_l by auto. reflexivity.
  Qed.
  Lemma new_leg_length l : length (new_leg gtb d v l) = length l. Proof. unfold new_leg. rewrite map_length, seq_length. auto. Qed.
  Lemma cut_key e : fst (cut_block gtb d v e) = fst e. Proof. unfold cut_block. destruct (kept _ _ _ _) as [[|n]|]; auto. Qed.
  Lemma legs_of (U' : t) L l : b_sbd U' = lens L ++ [length l] -> b_ss U' = concat L ++ l -> legs U' = L ++ [l].
  Proof.
    intros E1 E2. unfold legs. rewrite E1, E2. replace (lens L ++ [length l]) with (map (@length nat) (L ++ [l])) by (rewrite map_app; reflexivity).
    replace (concat L ++ l) with (concat (L ++ [l])) by (rewrite concat_app; cbn; rewrite app_nil_r; auto). apply unpack_concat.
  Qed.
  Lemma unit_result (U : t) : carries_d U -> let U' := fold_left (unit_step (length (b_ss d))) steps U in
    truncated gtb d v U U' /\ meta_ok U' /\ (tidy gtb d v U -> sorted lexb (b_blocks U')).
  Proof.
    intros HU. cbn zeta. destruct (last_leg HU) as (L & E1 & E2 & E3). assert (HS : sorted lexb (b_blocks U)) by apply HU. destruct HU as ([M VB] & R1 & El). assert (HU : carries_d U) by (split; [split; auto|auto]).
    destruct (@unit_fold G R (length (b_ss d)) steps U) as (A1 & A2 & A3 & A4 & A5 & A6 & A7 & A8).
    { rewrite E3, app_length. lia. } { apply steps_lt. } { apply steps_nodup. } { apply sorted_nodup; auto. }
    set (U' := fold_left _ steps U) in *.
    assert (ES : b_ss U' = concat L ++ new_leg gtb d v (b_ss d)).
    { rewrite A5, E3, app_length. replace (length (concat L) + length (b_ss d) - length (b_ss d)) with (length (concat L)) by lia.
      rewrite firstn_app, skipn_app, firstn_all, skipn_all, Nat.sub_diag. cbn [firstn skipn app]. rewrite app_nil_r, ss_new. reflexivity. }
    split; [|split].
    - split; [exact A1|]. split; [exact A2|]. split; [exact A3|]. split; [unfold qlegs; rewrite A3, A4; auto|].
      split; [|split; [|split; [|exact A8]]].
      + rewrite E1, removelast_last, last_last. apply legs_of; auto. rewrite new_leg_length, A3. exact E2.
      + intros e' He'. destruct (A6 e' He') as (e & He & ->). exists e. split; auto. apply (trim_cut e HU He).
      + intros e He Hk. rewrite <- (trim_cut e HU He). apply A7; auto. rewrite look_kept. exact Hk.
    - destruct M as (M1 & M2 & M3). split; [rewrite A2, A3; auto|]. rewrite A3, A4, ES. split; auto. rewrite M2, E3, !app_length, new_leg_length. auto.
    - intros HT. apply fold_sorted; auto. intros b Hb. unfold fine. change back with (@section_of R). apply HT. unfold emptied. rewrite <- look_kept. apply look_In; [apply steps_nodup|auto].
  Qed.
  Lemma truncated_valid (T T' : t) : carries_d T -> truncated gtb d v T T' -> meta_ok T' -> sorted lexb (b_blocks T') -> valid T'.
  Proof.
    intros HT (A1 & A2 & A3 & A4 & A5 & A6 & A7 & A8) M' HS. split; auto. split; auto. intros k x Hx. destruct (A6 _ Hx) as (e & He & Ee).
    assert (Ek : k = fst e) by (rewrite <- (cut_key e), <- Ee; auto). assert (Ex : x = snd (cut_block gtb d v e)) by (rewrite <- Ee; auto). clear Ee. subst k.
    destruct (unit_block e HT He) as (k0 & b & E1 & E2 & E3 & E4 & E5). destruct (last_leg HT) as (L & F1 & F2 & F3). destruct HT as ([M [B _]] & R1 & El).
    destruct e as [k y]. cbn [fst snd] in *. destruct (B _ _ He) as [[H1 H2] H3]. split.
    - split; [rewrite A3; auto|]. rewrite A4, A1. exact H2.
    - rewrite A5, El, F1, removelast_last. subst k. assert (Ll : length k0 = length L).
      { rewrite F2 in H1. apply in_range_length in H1. rewrite !app_length in H1. cbn in H1. unfold lens in H1. rewrite map_length in H1. lia. }
      rewrite pick_app by auto. cbn [pick]. rewrite F1, removelast_last in E5. rewrite <- E5. unfold new_leg. rewrite nth_map_seq by auto. unfold new_size.
      assert (Ey : dsh y = removelast (dsh y) ++ [nth b (b_ss d) 0]). { rewrite <- E4. apply app_removelast_last. rewrite H3, F1, pick_app by auto. destruct (pick 0 L k0); discriminate. }
      rewrite Ex. unfold cut_block. rewrite E2. destruct (kept gtb d v b) as [[|n]|]; cbn [snd dsh]; auto.
  Qed.

  (** The values. *)
  Definition d_cut : t := @mkB G R (b_rule d) (b_rank d) (b_sbd d) (fold_left ss_step steps (b_ss d)) (b_cv d) (flat_map (d_end gtb v) (b_blocks d)).
  Lemma d_end_cut e : In e (b_blocks d) -> d_end gtb v e = if above gtb v (entries (snd e)) =? 0 then [] else [cut_block gtb d v e].
  Proof.
    intros He. unfold d_end. destruct (step_val e He) as (c & E1 & _ & E2 & E3). rewrite E2. cbn [snd]. destruct (Nat.eqb_spec (above gtb v (entries (snd e))) 0) as [|En]; auto.
    unfold cut_block, section_of. rewrite E1. cbn [last]. rewrite <- look_kept. assert (HL : look steps c = Some (above gtb v (entries (snd e)))).
    { apply look_In; [apply steps_nodup|]. unfold steps. apply in_map_iff. exists e. rewrite <- in_rev. auto. }
    rewrite HL. destruct (above gtb v (entries (snd e))) as [|n] eqn:Ea; [lia|]. destruct (d_block e He) as (c' & E4 & _ & E5). rewrite E1 in E4. injection E4 as <-. unfold first_n. rewrite E5. cbn [last removelast app]. rewrite Nat.min_l by auto. reflexivity.
  Qed.
  Lemma kept_block e : In e (b_blocks d) -> kept gtb d v (section_of e) = Some (above gtb v (entries (snd e))).
  Proof.
    intros He. destruct (step_val e He) as (c & E1 & _ & E2 & E3). unfold section_of. rewrite E1. cbn [last]. rewrite <- look_kept.
    apply look_In; [apply steps_nodup|]. unfold steps. apply in_map_iff. exists e. rewrite <- in_rev. auto.
  Qed.
  Lemma d_carries : carries_d d.
  Proof. split; auto. split; [lia|]. rewrite d_legs. reflexivity. Qed.
  Lemma d_result : truncated gtb d v d d_cut /\ valid d_cut /\ (forall e, In e (b_blocks d_cut) -> ~ emptied gtb d v (section_of e)) /\
    all_values d_cut = filter (fun x => gtb x v) (all_values d).
  Proof.
    pose proof d_carries as HC.
    assert (K1 : forall e', In e' (flat_map (d_end gtb v) (b_blocks d)) -> exists e, In e (b_blocks d) /\ e' = cut_block gtb d v e /\ above gtb v (entries (snd e)) <> 0).
    { intros e' He'. apply in_flat_map in He' as (e & He & H). rewrite d_end_cut in H by auto. destruct (Nat.eqb_spec (above gtb v (entries (snd e))) 0); [destruct H|]. destruct H as [<-|[]]. eauto. }
    assert (HS : sorted lexb (flat_map (d_end gtb v) (b_blocks d))).
    { assert (S0 : sorted lexb (b_blocks d)) by apply Vd. clear K1. revert S0. unfold sorted. assert (KE := d_end_cut). revert KE. generalize (b_blocks d). induction l as [|e l IH]; intros KE S0; [constructor|]. cbn [flat_map]. inversion S0; subst.
      rewrite KE by (left; auto). specialize (IH ltac:(intros; apply KE; right; auto) H1). destruct (_ =? 0); auto. cbn [app]. constructor; auto.
      rewrite Forall_forall in *. intros x Hx. apply in_flat_map in Hx as (y & Hy & Hx). rewrite KE in Hx by (right; auto). destruct (_ =? 0); [destruct Hx|]. destruct Hx as [<-|[]]. rewrite !cut_key. auto. }
    assert (HT : truncated gtb d v d d_cut).
    { split; [auto|]. split; [auto|]. split; [auto|]. split; [auto|]. split; [|split; [|split]].
      - rewrite d_legs. cbn [removelast last app]. destruct (last_leg HC) as (L & E1 & E2 & E3). rewrite d_legs in E1. destruct L as [|a [|]]; try discriminate. cbn in E2.
        apply (@legs_of d_cut []); cbn [d_cut b_sbd b_ss]; [rewrite new_leg_length; auto|apply ss_new].
      - intros e' He'. destruct (K1 e' He') as (e & He & -> & _). eauto.
      - intros e He Hk. apply in_flat_map. exists e. split; auto. rewrite d_end_cut by auto. unfold emptied in Hk. rewrite kept_block in Hk by auto. destruct (Nat.eqb_spec (above gtb v (entries (snd e))) 0); [congruence|left; auto].
      - apply sorted_nodup. exact HS. }
    split; [exact HT|]. split; [|split].
    - apply (truncated_valid HC HT); [|exact HS]. destruct Vd as [(M1 & M2 & M3) _]. split; [exact M1|]. cbn [d_cut b_sbd b_ss b_cv]. rewrite ss_new, new_leg_length. auto.
    - intros e' He'. destruct (K1 e' He') as (e & He & -> & Hn). unfold emptied. unfold section_of. rewrite cut_key. fold (section_of e). rewrite kept_block by auto. congruence.
    - unfold all_values. cbn [d_cut b_blocks]. assert (KE := d_end_cut). assert (KB := d_block). assert (KK := kept_block). assert (KD := Dd). revert KE KB KK KD. generalize (b_blocks d). induction l as [|e l IH]; intros KE KB KK KD; auto.
      cbn [flat_map map concat]. rewrite map_app, concat_app, filter_app. f_equal; [|apply IH; intros; [apply KE|apply KB|apply KK|apply KD]; right; auto].
      rewrite KE by (left; auto). rewrite <- (lower_bound_above HO v (KD e (or_introl eq_refl))). rewrite (lower_bound_count HO v (KD e (or_introl eq_refl))).
      destruct (Nat.eqb_spec (above gtb v (entries (snd e))) 0) as [->|En]; auto. cbn [map concat]. rewrite app_nil_r. unfold cut_block. rewrite KK by (left; auto).
      destruct (above gtb v (entries (snd e))) as [|n] eqn:Ea; [lia|]. destruct (KB e (or_introl eq_refl)) as (c & E1 & _ & E2). cbn [snd]. rewrite E2. cbn [removelast app].
      rewrite <- (@entries_values R (mkD [S n] (dv (snd e))) (S n) eq_refl). rewrite <- (entries_values _ E2). unfold values. rewrite E2. cbn [nth dsh dv].
      assert (Hle : S n <= nth c (b_ss d) 0). { rewrite <- Ea, <- (entries_len _ E2). unfold above. clear. induction (entries (snd e)) as [|a l0 IH]; cbn; auto. destruct (gtb a v); cbn; lia. }
      rewrite firstn_map. f_equal. replace (nth c (b_ss d) 0) with (S n + (nth c (b_ss d) 0 - S n)) by lia. rewrite seq_app, firstn_app, firstn_all2, seq_length, Nat.sub_diag by (rewrite seq_length; lia). cbn [firstn]. rewrite app_nil_r. reflexivity.
  Qed.
  Theorem loop_result (us : list t) : (forall U, In U us -> carries_d U) ->
    exists us', trunc_loop gtb v (length (b_blocks d)) d us = Some (Ok (d_cut, us')) /\
      Forall2 (fun U U' => truncated gtb d v U U' /\ (tidy gtb d v U -> valid U')) us us'.
  Proof.
    intros HU. eexists. split.
    - rewrite (@trunc_loop_eq G R gtb v (b_blocks d) [] d us); [rewrite app_nil_r; reflexivity|rewrite app_nil_r; auto| |].
      + intros e He. destruct (step_val e He) as (c & E & Hc & _). unfold back. rewrite E. auto.
      + intros U H. destruct (last_leg (HU U H)) as (L & _ & _ & ->). rewrite app_length. lia.
    - fold steps. revert HU. induction us as [|U us IH]; intros HU; constructor; [|apply IH; intros; apply HU; right; auto].
      destruct (@unit_result U (HU U (or_introl eq_refl))) as (T1 & T2 & T3). split; auto. intros HT. apply (truncated_valid (HU U (or_introl eq_refl)) T1 T2). auto.
  Qed.
End Main.

Section Impl.
  Context {G : abgroup} {R : ring} {W : weights}.
  Notation t := (btensor G R).
  Variable gtb : R -> R -> bool.
  Variable lower : R -> R.
  Variable wt : R -> W.
  Hypothesis HO : total_order gtb.

  Lemma all_values_eq (d : t) : valid d -> b_rank d = 1 -> concat (map (fun e => values (snd e)) (b_blocks d)) = all_values d.
  Proof. intros V H. unfold all_values. f_equal. apply map_ext_in. intros e He. destruct (d_block V H e He) as (c & _ & _ & E). apply (entries_values _ E). Qed.
  (** The value at which the loop stops. *)
  Theorem smallest_spec (d : t) thr mn mx : valid d -> b_rank d = 1 -> 1 <= length (all_values d) -> (Z.of_nat (length (all_values d)) <= 2 ^ 63)%Z -> (1 <= mn <= mx)%Z ->
    exists vs k, Permutation vs (all_values d) /\ descending gtb vs /\ 1 <= k <= length vs /\
      (Z.min mn (Z.of_nat (length vs)) <= Z.of_nat k <= mx)%Z /\
      (k < length vs -> exceeds (lost_after wt k) [vs] thr -> Z.of_nat k = mx) /\
      (forall j, j < k -> (mn <= Z.of_nat j)%Z -> exceeds (lost_after wt j) [vs] thr) /\
      smallest_value gtb lower wt d thr mn mx = Some (Ok (lower (nth (k - 1) vs rz))).
  Proof.
    intros V H1 HL HB Hm. pose proof (sort_perm gtb (all_values d)) as P. pose proof (Permutation_length P) as EL. unfold smallest_value. rewrite all_values_eq by auto.
    set (vs := sort_desc gtb (all_values d)) in *. rewrite <- EL in HL, HB.
    destruct (@last_index_spec W R wt (length vs) [vs] thr mn mx) as (k & E & K1 & K2 & K3 & K4); auto; [intros r [<-|[]]; auto|].
    assert (Hk : 1 <= k) by lia. exists vs, k. split; auto. split; [apply sort_desc_ok; auto|]. split; [lia|]. split; [auto|]. split; [auto|]. split; [auto|].
    rewrite E. cbn [obind]. unfold item. replace (- Z.of_nat (length vs) <=? Z.of_nat k - 1)%Z with true by lia. replace (Z.of_nat k - 1 <? Z.of_nat (length vs))%Z with true by lia. cbn [andb].
    replace (Z.of_nat k - 1 <? 0)%Z with false by lia. replace (Z.to_nat (Z.of_nat k - 1)) with (k - 1) by lia. unfold rnth. rewrite (nth_error_nth' vs rz) by lia. reflexivity.
  Qed.
  Theorem truncate_ok (U d V : t) thr mn mx : valid d -> b_rank d = 1 -> (forall e, In e (b_blocks d) -> descending gtb (entries (snd e))) ->
    carries_d d U -> carries_d d V ->
    1 <= length (all_values d) -> (Z.of_nat (length (all_values d)) <= 2 ^ 63)%Z -> (1 <= mn <= mx)%Z ->
    exists vs k U' d' V', Permutation vs (all_values d) /\ descending gtb vs /\ 1 <= k <= length vs /\
      (Z.min mn (Z.of_nat (length vs)) <= Z.of_nat k <= mx)%Z /\
      (k < length vs -> exceeds (lost_after wt k) [vs] thr -> Z.of_nat k = mx) /\
      (forall j, j < k -> (mn <= Z.of_nat j)%Z -> exceeds (lost_after wt j) [vs] thr) /\
      let v := lower (nth (k - 1) vs rz) in
      truncate gtb lower wt (U, d, V) thr mn mx = Some (Ok (U', d', V')) /\
      truncated gtb d v d d' /\ valid d' /\ (forall e, In e (b_blocks d') -> ~ emptied gtb d v (section_of e)) /\
      all_values d' = filter (fun x => gtb x v) (all_values d) /\
      truncated gtb d v U U' /\ truncated gtb d v V V' /\ (tidy gtb d v U -> valid U') /\ (tidy gtb d v V -> valid V').
  Proof.
    intros Vd H1 Hd HU HV HL HB Hm. destruct (@smallest_spec d thr mn mx) as (vs & k & P & D & K & K1 & K2 & K3 & E); auto.
    set (v := lower (nth (k - 1) vs rz)) in *.
    destruct (@loop_result G R gtb HO d v Vd H1 Hd [U; V]) as (us' & E2 & F); [intros X [<-|[<-|[]]]; auto|].
    inversion F as [|? U' ? us1 [FU1 FU2] F1]; subst. inversion F1 as [|? V' ? us2 [FV1 FV2] F2]; subst. inversion F2; subst.
    destruct (@d_result G R gtb HO d v Vd H1 Hd) as (D1 & D2 & D3 & D4).
    exists vs, k, U', (d_cut gtb d v), V'. do 6 (split; [auto; fail|]). cbn zeta. split; [|auto 10].
    unfold truncate, truncate_impl. rewrite E. cbn [obind]. rewrite E2. reflexivity.
  Qed.

  Lemma total_app l m : total wt (l ++ m) = wadd (total wt l) (total wt m).
  Proof. induction l as [|x l IH]; cbn [app total]; [symmetry; apply wadd_0|]. rewrite IH. apply wadd_assoc. Qed.
  Lemma total_perm l m : Permutation l m -> total wt l = total wt m.
  Proof. induction 1; cbn [total]; try congruence. rewrite !wadd_assoc. f_equal. apply wadd_comm. Qed.
  Lemma filter_perm A (p : A -> bool) l m : Permutation l m -> Permutation (filter p l) (filter p m).
  Proof. induction 1; cbn; auto; [destruct (p x); auto|destruct (p x), (p y); auto; constructor|eapply perm_trans; eauto]. Qed.
  Lemma split_desc v l : descending gtb l -> filter (fun x => gtb x v) l = firstn (above gtb v l) l /\ filter (fun x => negb (gtb x v)) l = skipn (above gtb v l) l.
  Proof.
    intros H. rewrite <- (lower_bound_count HO v H). split; [symmetry; apply lower_bound_above; auto|]. revert H. induction l as [|x l IH]; intros H; auto.
    apply desc_cons in H as [H1 H2]. cbn [lower_bound_impl2 filter]. destruct (gtb x v) eqn:E; cbn [negb].
    - cbn [skipn]. auto.
    - cbn [skipn]. f_equal. assert (K : forall y, In y l -> gtb y v = false) by (intros y Hy; apply (gt_le HO x); auto). clear - K. induction l as [|y l IH]; auto. cbn. rewrite K by (left; auto). cbn [negb]. f_equal. apply IH. intros; apply K; right; auto.
  Qed.
  Lemma above_ge v l k : descending gtb l -> 1 <= k <= length l -> gtb (nth (k - 1) l rz) v = true -> k <= above gtb v l.
  Proof.
    intros H Hk Hv. destruct (Nat.le_gt_cases k (above gtb v l)) as [|Hlt]; auto. exfalso.
    assert (K : In (nth (k - 1) l rz) (filter (fun x => negb (gtb x v)) l)).
    { destruct (split_desc v H) as [_ ->]. rewrite <- (firstn_skipn (above gtb v l) l) at 1. rewrite app_nth2; rewrite firstn_length, Nat.min_l by lia; [|lia]. apply nth_In. rewrite skipn_length. lia. }
    apply filter_In in K as [_ K]. rewrite Hv in K. discriminate.
  Qed.
  Lemma above_le v l k : descending gtb l -> (k < length l -> gtb (nth k l rz) v = false) -> above gtb v l <= k.
  Proof.
    intros H Hv. assert (Ha : above gtb v l <= length l) by (rewrite <- (lower_bound_count HO v H); apply lower_bound_le). destruct (Nat.le_gt_cases (above gtb v l) k) as [|Hlt]; auto. exfalso. rewrite <- not_true_iff_false in Hv. apply Hv; [lia|].
    assert (K : In (nth k l rz) (filter (fun x => gtb x v) l)).
    { destruct (split_desc v H) as [-> _]. rewrite <- (firstn_skipn (above gtb v l) l) at 1. rewrite app_nth1; [|rewrite firstn_length; lia]. apply nth_In. rewrite firstn_length. lia. }
    apply filter_In in K. tauto.
  Qed.
  (** How many values remain above the lowered bound, and what is lost. *)
  Theorem count_ok (all vs : list R) k thr mn mx : Permutation vs all -> descending gtb vs -> 1 <= k <= length vs -> (Z.min mn (Z.of_nat (length vs)) <= Z.of_nat k <= mx)%Z ->
    (k < length vs -> exceeds (lost_after wt k) [vs] thr -> Z.of_nat k = mx) -> wgtb wz thr = false ->
    let x := nth (k - 1) vs rz in
    (gtb x (lower x) = true -> (Z.min mn (Z.of_nat (length all)) <= Z.of_nat (above gtb (lower x) all))%Z /\
       (wgtb (total wt (filter (fun y => negb (gtb y (lower x))) all)) thr = true -> Z.of_nat k = mx)) /\
    ((k < length vs -> gtb (nth k vs rz) (lower x) = false) -> (Z.of_nat (above gtb (lower x) all) <= mx)%Z).
  Proof.
    intros P D Hk H1 H2 Ht x. pose proof (Permutation_length P) as EL. assert (EA : above gtb (lower x) all = above gtb (lower x) vs) by (unfold above; apply Permutation_length, filter_perm, Permutation_sym, P).
    split.
    - intros Hx. pose proof (@above_ge (lower x) vs k D Hk Hx) as Hge. rewrite EA, <- EL. split; [lia|]. intros Hw.
      rewrite (total_perm (filter_perm (fun y => negb (gtb y (lower x))) (Permutation_sym P))) in Hw. rewrite (proj2 (split_desc (lower x) D)) in Hw.
      set (n := above gtb (lower x) vs) in *. destruct (Nat.lt_ge_cases n (length vs)) as [Hn|Hn]; [|rewrite skipn_all2 in Hw by lia; cbn in Hw; congruence].
      apply H2; [lia|]. exists vs. split; [left; auto|]. unfold lost_after. replace (skipn k vs) with (firstn (n - k) (skipn k vs) ++ skipn n vs).
      + rewrite total_app. apply wgtb_mono. exact Hw.
      + rewrite <- (firstn_skipn (n - k) (skipn k vs)) at 2. f_equal. rewrite skipn_skipn'. f_equal. lia.
    - intros Hs. rewrite EA. assert (above gtb (lower x) vs <= k); [|lia]. apply above_le; auto.
  Qed.
End Impl.

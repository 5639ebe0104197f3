(** Lemmas about the dimension helpers and chain checks. *)
From Verif Require Import Base Quantity QuantityProofs Ring Index SpecIndex IndexProofs Dense BTensor SpecBTensor LegsProofs BTensorProofs BTensorThms
  BTensorArith Tensordot Reshape View ViewProofs ChainCheck SpecChainCheck.

Lemma concat_spec ls : dims_concat ls = concat ls.
Proof.
  unfold dims_concat. assert (H : forall acc, fold_left (fun out a => out ++ a) ls acc = acc ++ concat ls).
  { induction ls as [|a ls IH]; intros acc; cbn; [rewrite app_nil_r; reflexivity|]. rewrite IH, app_assoc. reflexivity. }
  apply (H []).
Qed.
Lemma prod_spec l : prefixes_fit l -> dims_prod l = Ok (zprod l).
Proof.
  intros H. unfold dims_prod. assert (X : forall l acc, (forall k, (- 2 ^ 63 <= acc * zprod (firstn k l) < 2 ^ 63)%Z) ->
    rfold (fun out a => if int64_ok (out * a) then Ok (out * a)%Z else UB) l acc = Ok (acc * zprod l)%Z).
  { clear. induction l as [|a l IH]; intros acc H; cbn [rfold]; [cbn; f_equal; lia|].
    pose proof (H 1) as H1. cbn [firstn zprod fold_right] in H1. unfold int64_ok.
    replace ((- 2 ^ 63 <=? acc * a) && (acc * a <? 2 ^ 63))%Z with true.
    2:{ symmetry. apply andb_true_iff. rewrite Z.leb_le, Z.ltb_lt. lia. }
    cbn [rbind]. rewrite IH.
    - f_equal. cbn [zprod fold_right]. fold (zprod l). lia.
    - intros k. specialize (H (S k)). cbn [firstn zprod fold_right] in H. fold (zprod (firstn k l)) in H. lia. }
  rewrite X; [f_equal; lia|]. intros k. specialize (H k). lia.
Qed.
Lemma slice_spec {A} (d : A) l s n :
  (s + n <= length l -> exists m, dims_slice l s n = Ok m /\ length m = n /\ forall k, k < n -> nth k m d = nth (s + k) l d) /\
  (length l < s + n -> dims_slice l s n = Throw TorchError).
Proof.
  unfold dims_slice. split; intros H.
  - rewrite (proj2 (Nat.leb_le _ _)) by lia. eexists. split; [reflexivity|]. split; [rewrite firstn_length, skipn_length; lia|].
    intros k Hk. rewrite nth_firstn_lt' by lia. apply nth_skipn'.
  - rewrite (proj2 (Nat.leb_gt _ _)) by lia. reflexivity.
Qed.
Lemma reverse_partial l : firstn (length l) (dims_reverse l) = rev l /\ length (dims_reverse l) = 2 * length l.
Proof.
  unfold dims_reverse. split.
  - rewrite <- (rev_length l), firstn_app, Nat.sub_diag, firstn_all. cbn. apply app_nil_r.
  - rewrite app_length, rev_length, repeat_length. lia.
Qed.

Lemma ranks_loop_spec r l : (forall t, In t l -> 3 <= length t) -> forall prev,
  exists b, ranks_loop r l prev = Ok b /\
    (b = true <-> (forall t, In t l -> length t = r) /\ linked (fun a b => nth 2 a 0 = nth 0 b 0) l /\ (l <> [] -> prev = nth 0 (hd [] l) 0)).
Proof.
  induction l as [|t l IH]; intros H prev; cbn [ranks_loop].
  - exists true. split; [reflexivity|]. split; [|reflexivity]. intros _. split; [intros t []|]. split; [exact I|congruence].
  - pose proof (H t (or_introl eq_refl)) as Ht. rewrite (rnth_Ok 0), (rnth_Ok 0) by lia. cbn [rbind].
    destruct (IH (fun x Hx => H x (or_intror Hx)) (nth 2 t 0)) as [b [E Hb]].
    destruct (Nat.eqb_spec (length t) r) as [Er|Er]; [destruct (Nat.eqb_spec prev (nth 0 t 0)) as [Ep|Ep]|]; cbn [andb].
    + exists b. split; [exact E|]. rewrite Hb. split.
      * intros (H1 & H2 & H3). split; [intros x [<-|Hx]; auto|]. split; [|intros _; exact Ep].
        destruct l as [|t' l']; [exact I|]. split; auto. apply H3. congruence.
      * intros (H1 & H2 & _). split; [intros; apply H1; right; auto|]. destruct l as [|t' l']; [split; [exact I|congruence]|].
        destruct H2 as [H2 H3]. split; auto.
    + exists false. split; [reflexivity|]. split; [discriminate|]. intros (_ & _ & H3). exfalso. apply Ep, H3. congruence.
    + exists false. split; [reflexivity|]. split; [discriminate|]. intros (H1 & _). exfalso. apply Er, H1. left; auto.
Qed.
Theorem check_ranks_spec r l : l <> [] -> (forall t, In t l -> 3 <= length t) ->
  exists b, check_ranks r l = Ok b /\ (b = true <-> sizes_chain r l).
Proof.
  intros Hl H. unfold check_ranks. destruct l as [|t l]; [congruence|]. cbn [rnth nth_error rbind].
  rewrite (rnth_Ok 0) by (specialize (H t (or_introl eq_refl)); lia). cbn [rbind].
  destruct (ranks_loop_spec r (t :: l) H (nth 0 t 0)) as [b [E Hb]]. exists b. split; [exact E|]. rewrite Hb. unfold sizes_chain.
  cbn [hd]. tauto.
Qed.
Lemma check_ranks_short r t l : length t < 3 -> check_ranks r (t :: l) = UB.
Proof.
  intros H. unfold check_ranks. cbn [rnth nth_error rbind]. destruct t as [|a [|b [|]]]; try reflexivity. cbn in H. lia.
Qed.
Theorem mps_ctor_spec l oc : l <> [] -> (forall t, In t l -> 3 <= length t) ->
  (sizes_chain 3 l /\ oc < length l -> mps_ctor l oc = Ok (l, oc)) /\
  (~ (sizes_chain 3 l /\ oc < length l) -> mps_ctor l oc = Throw InvalidArgument).
Proof.
  intros Hl H. unfold mps_ctor. destruct (check_ranks_spec 3 l Hl H) as [b [E Hb]]. rewrite E. cbn [rbind].
  assert (Hlen : 0 < length l) by (destruct l; [congruence|cbn; lia]).
  assert (X : (length l <=? oc) && negb (oc =? 0) = true <-> ~ oc < length l).
  { rewrite andb_true_iff, negb_true_iff, Nat.leb_le, Nat.eqb_neq. lia. }
  split.
  - intros [H1 H2]. apply Hb in H1. subst b. cbn [negb]. destruct ((length l <=? oc) && negb (oc =? 0)); [|reflexivity]. exfalso. apply X; auto.
  - intros HN. destruct b; cbn [negb]; [|reflexivity]. destruct ((length l <=? oc) && negb (oc =? 0)); [reflexivity|].
    exfalso. apply HN. split; [apply Hb; reflexivity|]. destruct (Nat.lt_ge_cases oc (length l)) as [|Hg]; [assumption|].
    assert (false = true) by (apply X; lia). discriminate.
Qed.

Section Block.
  Context {G : abgroup} {R : ring}.
  Implicit Types T : btensor G R.
  Lemma bond_compat_spec (T1 T2 : btensor G R) i j : meta_ok T1 -> meta_ok T2 -> i < b_rank T1 -> j < b_rank T2 ->
    exists b, bond_compat T1 T2 i j = Ok b /\ (b = true <-> bond_quantities i j T1 T2).
  Proof.
    intros M1 M2 I1 I2. unfold bond_compat.
    rewrite (rnth_Ok 0) by (rewrite (proj1 M1); auto). cbn [rbind]. rewrite (rnth_Ok 0) by (rewrite (proj1 M2); auto). cbn [rbind].
    assert (S1 : nth i (b_sbd T1) 0 = length (nth i (legs T1) [])).
    { rewrite <- (legs_lens M1). unfold lens. change 0 with (length (@nil nat)). apply map_nth. }
    assert (S2 : nth j (b_sbd T2) 0 = length (nth j (legs T2) [])).
    { rewrite <- (legs_lens M2). unfold lens. change 0 with (length (@nil nat)). apply map_nth. }
    assert (Q1 : nth i (b_sbd T1) 0 = length (nth i (qlegs T1) [])).
    { rewrite <- (qlegs_lens M1). unfold lens. change 0 with (length (@nil G)). apply map_nth. }
    assert (Q2 : nth j (b_sbd T2) 0 = length (nth j (qlegs T2) [])).
    { rewrite <- (qlegs_lens M2). unfold lens. change 0 with (length (@nil G)). apply map_nth. }
    unfold bond_quantities. destruct (Nat.eqb_spec (nth i (b_sbd T1) 0) (nth j (b_sbd T2) 0)) as [E|E]; cbn [negb].
    - eexists. split; [reflexivity|]. rewrite forallb_forall.
      rewrite !prange_unpack by (rewrite ?(proj1 M1), ?(proj1 M2); auto). fold (qlegs T1). fold (qlegs T2). split.
      + intros H. split; [congruence|]. intros s Hs. apply qeqb_spec.
        apply (H (nth s (nth i (qlegs T1) []) (qe G), nth s (nth j (qlegs T2) []) (qe G))).
        rewrite <- combine_nth by congruence. apply nth_In. rewrite combine_length. rewrite <- Q1, <- Q2, <- E, Nat.min_id. lia.
      + intros [_ H] [a b] Hab. destruct (In_nth _ _ (qe G, qe G) Hab) as [s [Hs E']].
        rewrite combine_length, <- Q1, <- Q2, <- E, Nat.min_id in Hs. rewrite combine_nth in E' by congruence. injection E' as <- <-.
        apply qeqb_spec. apply H. lia.
    - exists false. split; [reflexivity|]. split; [discriminate|]. intros [H _]. congruence.
  Qed.
  Lemma b_ranks_loop_spec r l : 3 <= r -> (forall T, In T l -> meta_ok T) -> forall T, meta_ok T -> b_rank T = r ->
    exists b, b_ranks_loop r T l = Ok b /\ (b = true <-> block_chain r (bond_quantities 2 0) (T :: l)).
  Proof.
    intros Hr. induction l as [|T' l IH]; intros HM T HT ET; cbn [b_ranks_loop].
    - exists true. split; [reflexivity|]. split; [|reflexivity]. intros _. split; [intros x [<-|[]]; auto|exact I].
    - destruct (Nat.eqb_spec (b_rank T') r) as [E|E].
      + destruct (bond_compat_spec T T' 2 0) as [c [Ec Hc]]; [assumption|apply HM; left; auto|lia|lia|]. rewrite Ec. cbn [rbind]. destruct c.
        * destruct (IH (fun x Hx => HM x (or_intror Hx)) T' (HM T' (or_introl eq_refl)) E) as [b [Eb Hb]].
          exists b. split; [exact Eb|]. rewrite Hb. split.
          -- intros [H1 H2]. split; [intros x [<-|Hx]; auto|]. split; auto. apply Hc; auto.
          -- intros [H1 [_ H2]]. split; auto. intros; apply H1; right; auto.
        * exists false. split; [reflexivity|]. split; [discriminate|]. intros [_ [H _]]. apply Hc in H. discriminate.
      + exists false. split; [reflexivity|]. split; [discriminate|]. intros [H _]. exfalso. apply E, H. right. left. auto.
  Qed.
  Theorem b_check_ranks_spec r (l : list (btensor G R)) : 3 <= r -> l <> [] -> (forall T, In T l -> meta_ok T) ->
    exists b, b_check_ranks r l = Ok b /\ (b = true <-> block_chain r (bond_quantities 2 0) l).
  Proof.
    intros Hr Hl HM. destruct l as [|T l]; [congruence|]. cbn [b_check_ranks]. destruct (Nat.eqb_spec (b_rank T) r) as [E|E].
    - apply b_ranks_loop_spec; auto; [intros; apply HM; right; auto|apply HM; left; auto].
    - exists false. split; [reflexivity|]. split; [discriminate|]. intros [H _]. exfalso. apply E, H. left; auto.
  Qed.
End Block.

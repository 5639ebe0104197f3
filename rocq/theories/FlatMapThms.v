(** Lemmas closing the property theorems on the sorted block map. *)
From Verif Require Import Base FlatMap SpecFlatMap FlatMapProofs.
Set Implicit Arguments.

Section Thms.
  Variables K V : Type.
  Variable keqb : K -> K -> bool.
  Variable kltb : K -> K -> bool.
  Hypothesis HK : key_order keqb kltb.
  Variable vdefault : V.
  Notation entry := (K * V)%type.
  Notation sorted := (sorted (V:=V) kltb).
  Notation assoc := (assoc (V:=V) keqb).

  Lemma vec_erase_mid (l1 : list entry) x l2 : vec_erase (length l1) (l1 ++ x :: l2) = l1 ++ l2.
  Proof. unfold vec_erase. rewrite firstn_mid, skipn_mid1. reflexivity. Qed.

  (** *** histories *)
  Definition repr (l : list entry) (m : fmap K V) : Prop := sorted l /\ forall k, assoc k l = m k.

  Lemma step_refines l m o : repr l m -> op_wf kltb o ->
    exists l' x, model_step keqb kltb vdefault l o = Ok (l', x) /\
      x = snd (spec_step keqb vdefault m o) /\ repr l' (fst (spec_step keqb vdefault m o)).
  Proof.
    intros [Hs Hm] Hwf. destruct o as [k v|k v|k v|k|k|k|k| |s]; cbn [model_step spec_step].
    - destruct (fm_insert_spec HK k v Hs) as (l' & i & b & -> & Hs' & Hb & Ha).
      exists l', (OBool V b). split; [reflexivity|]. rewrite Hm in Hb.
      destruct (m k) as [w|] eqn:E; subst b; cbn; (split; [reflexivity|split; [assumption|]]);
        intros k'; rewrite Ha, Hm; reflexivity.
    - rewrite (fm_emplace_insert HK (k, v) Hs).
      destruct (fm_insert_spec HK k v Hs) as (l' & i & b & -> & Hs' & Hb & Ha).
      exists l', (OBool V b). split; [reflexivity|]. rewrite Hm in Hb.
      destruct (m k) as [w|] eqn:E; subst b; cbn; (split; [reflexivity|split; [assumption|]]);
        intros k'; rewrite Ha, Hm; reflexivity.
    - destruct (fm_subscript_assign_spec HK vdefault k v Hs) as [H1 H2].
      do 2 eexists; split; [reflexivity|]. split; [reflexivity|]. split; [assumption|].
      intros k'. rewrite H2, Hm. reflexivity.
    - destruct (fm_subscript_spec HK vdefault k Hs) as (l' & i & l1 & w & l2 & -> & Hs' & -> & -> & L & G & Ew & Ha).
      rewrite nth_error_mid. cbn [snd]. do 2 eexists; split; [reflexivity|]. rewrite Hm in Ew.
      assert (A : forall k', assoc k' (l1 ++ (k, w) :: l2) = if keqb k k' then Some w else m k').
      { intros k'. rewrite (assoc_mid_insert HK w l2 k' L), Ha, Hm. destruct (keqb k k'); reflexivity. }
      destruct (m k) as [u|] eqn:E; subst w; cbn; (split; [reflexivity|split; [assumption|]]);
        intros k'; rewrite A; [|reflexivity].
      destruct (keqb k k') eqn:E'; [|reflexivity]. apply (keq HK) in E'; subst; auto.
    - rewrite (fm_at_spec HK k Hs), Hm. destruct (m k); cbn; do 2 eexists; split; try reflexivity; split; auto; split; auto.
    - do 2 eexists; split; [reflexivity|]. rewrite (fm_contains_spec HK k Hs), Hm. cbn. destruct (m k); split; auto; split; auto.
    - destruct (fm_find_view HK k Hs) as [H1 H2|l1 v l2 -> L G H1 H2].
      + rewrite H2, Nat.eqb_refl. do 2 eexists; split; [reflexivity|]. rewrite Hm in H1. rewrite H1. cbn.
        split; auto; split; auto. intros k'. rewrite Hm. unfold fdel. destruct (keqb k k') eqn:E; [|reflexivity].
        apply (keq HK) in E; subst; auto.
      + rewrite H2. replace (length l1 =? length (l1 ++ (k, v) :: l2)) with false
          by (symmetry; apply Nat.eqb_neq; rewrite app_length; cbn; lia).
        unfold fm_erase_pos. replace (length l1 <? length (l1 ++ (k, v) :: l2)) with true
          by (symmetry; apply Nat.ltb_lt; rewrite app_length; cbn; lia).
        rewrite vec_erase_mid. cbn. do 2 eexists; split; [reflexivity|]. rewrite Hm in H1. rewrite H1.
        split; [reflexivity|]. split; [eapply sorted_mid_remove; exact Hs|].
        intros k'. rewrite (assoc_mid_remove HK v k' L G), Hm. reflexivity.
    - do 2 eexists; split; [reflexivity|]. split; [reflexivity|]. split; [constructor|reflexivity].
    - destruct (fm_insert_range_spec HK (fun a _ => a) (fun a => a) Hs Hwf) as (r & Er & Hr & Ha).
      unfold fm_merge. rewrite Er. cbn. do 2 eexists; split; [reflexivity|]. split; [reflexivity|].
      split; [assumption|]. intros k. rewrite Ha, Hm. unfold funion.
      destruct (m k); destruct (assoc k s); try reflexivity. destruct (forallb _ s); reflexivity.
  Qed.

  Lemma run_refines os : forall l m, repr l m -> Forall (op_wf kltb) os ->
    exists l' xs, model_run keqb kltb vdefault l os = Ok (l', xs) /\
      xs = snd (spec_run keqb vdefault m os) /\ repr l' (fst (spec_run keqb vdefault m os)).
  Proof.
    induction os as [|o os IH]; intros l m Hr Hwf; cbn [model_run spec_run].
    - do 2 eexists; split; [reflexivity|]. cbn; auto.
    - inversion Hwf as [|? ? H1 H2]; subst.
      destruct (step_refines o Hr H1) as (l1 & x & -> & Ex & Hr1). cbn [rbind].
      destruct (spec_step keqb vdefault m o) as [m1 x1] eqn:Es. cbn in Ex, Hr1.
      destruct (IH l1 m1 Hr1 H2) as (l2 & xs & -> & Exs & Hr2). cbn [rbind].
      destruct (spec_run keqb vdefault m1 os) as [m2 xs2] eqn:Er. cbn in *.
      do 2 eexists; split; [reflexivity|]. subst; auto.
  Qed.

  Lemma history os : Forall (op_wf kltb) os ->
    exists l xs, model_run keqb kltb vdefault [] os = Ok (l, xs) /\ sorted l /\
      xs = snd (spec_run keqb vdefault (fun _ => None) os) /\
      forall k, assoc k l = fst (spec_run keqb vdefault (fun _ => None) os) k.
  Proof.
    intros H. destruct (@run_refines os [] (fun _ => None)) as (l & xs & E & Ex & Hs & Ha); auto.
    - split; [constructor|reflexivity].
    - exists l, xs; auto.
  Qed.

  (** *** erase(key) *)
  Lemma erase_key_present l k v : sorted l -> assoc k l = Some v ->
    exists l', fm_erase_key kltb l k = Ok (l', 1) /\ sorted l' /\
      forall k', assoc k' l' = if keqb k k' then None else assoc k' l.
  Proof.
    intros Hs Ha. unfold fm_erase_key.
    destruct (lb_view HK k Hs) as [H1 H2|l1 w l2 -> H1 H2 H3|l1 e l2 -> H1 H2 H3].
    - rewrite (assoc_lt HK H1) in Ha; discriminate.
    - rewrite H3, nth_error_mid. cbn. rewrite (kirr HK). rewrite vec_erase_mid.
      eexists; split; [reflexivity|]. split; [eapply sorted_mid_remove; exact Hs|].
      intros k'. apply (assoc_mid_remove HK); assumption.
    - rewrite (assoc_view_gt HK H1 H2) in Ha; discriminate.
  Qed.

  Lemma erase_key_absent l k : sorted l -> assoc k l = None ->
    match fm_erase_key kltb l k with
    | UB => forall e, In e l -> kltb (fst e) k = true
    | Ok (l', n) => n = 1 /\ exists l1 e l2, l = l1 ++ e :: l2 /\ l' = l1 ++ l2 /\ kltb k (fst e) = true
    | Throw _ => False
    end.
  Proof.
    intros Hs Ha. unfold fm_erase_key.
    destruct (lb_view HK k Hs) as [H1 H2|l1 w l2 -> H1 H2 H3|l1 e l2 -> H1 H2 H3].
    - rewrite H2, nth_error_len. exact H1.
    - rewrite (assoc_view_eq HK w l2 H1) in Ha; discriminate.
    - rewrite H3, nth_error_mid. apply all_gt_cons in H2 as [H4 H5].
      rewrite (klt_asym HK _ _ H4), vec_erase_mid. split; [reflexivity|]. exists l1, e, l2; auto.
  Qed.

  (** *** hints *)
  Notation good_hint := (good_hint (V:=V) kltb).
  Lemma lb_le k (l : list entry) : lower_bound kltb k l <= length l.
  Proof. induction l as [|e l IH]; cbn; [lia|]. destruct (kltb (fst e) k); lia. Qed.

  Lemma lb_prefix_gt k (a b : list entry) : all_lt kltb a k -> (forall e, In e b -> kltb (fst e) k = false) ->
    lower_bound kltb k (a ++ b) = length a.
  Proof.
    induction a as [|x a IH]; cbn; intros Ha Hb.
    - destruct b as [|y b]; [reflexivity|]. cbn. rewrite (Hb y) by (left; auto). reflexivity.
    - rewrite (Ha x) by (left; auto). rewrite IH; auto. intros y Hy; apply Ha; right; auto.
  Qed.

  Lemma nth_split_sorted (l : list entry) h e : nth_error l h = Some e -> sorted l ->
    exists l1 l2, l = l1 ++ e :: l2 /\ length l1 = h /\ all_lt kltb l1 (fst e) /\ all_gt kltb (fst e) l2.
  Proof.
    intros H Hs. apply nth_error_split in H as (l1 & l2 & -> & <-). exists l1, l2.
    apply sorted_app in Hs as (H1 & H2 & H3). apply sorted_cons in H2 as [H2 H4].
    repeat split; auto. intros x Hx. apply H3; [assumption|left; reflexivity].
  Qed.

  Lemma hint_position l h k : sorted l -> h <= length l -> good_hint l h k ->
    lower_bound_in kltb k l (use_hint kltb l h k) = lower_bound kltb k l.
  Proof.
    intros Hs Hh Hg. unfold lower_bound_in, use_hint.
    destruct (length l =? 0) eqn:E0.
    { apply Nat.eqb_eq, length_zero_iff_nil in E0. subst; reflexivity. }
    apply Nat.eqb_neq in E0.
    set (h' := if h =? length l then h - 1 else h).
    assert (Hh' : h' < length l).
    { unfold h'. destruct (Nat.eqb_spec h (length l)); lia. }
    destruct (nth_error l h') as [e|] eqn:Ee; [|apply nth_error_None in Ee; lia].
    destruct (nth_split_sorted _ Ee Hs) as (l1 & l2 & El & Hl1 & L1 & G2).
    destruct (kltb (fst e) k) eqn:Elt.
    - rewrite (klt_asym HK _ _ Elt). cbn [fst snd].
      replace (h' + 1 - h') with 1 by lia. rewrite <- Hl1. rewrite El at 1. rewrite skipn_mid. cbn. rewrite Elt.
      assert (G : forall x, In x l2 -> kltb (fst x) k = false).
      { assert (Hd : match l2 with [] => True | x :: _ => kltb (fst x) k = false end).
        { destruct l2 as [|x l2]; [exact I|].
          assert (Hlen : length l = length l1 + S (S (length l2))) by (rewrite El, app_length; reflexivity).
          destruct Hg as [Hg|[(y & Hy & Hy')|(Hlt & Hn)]].
          - exfalso. unfold h' in Hl1. rewrite Hg, Nat.eqb_refl in Hl1. lia.
          - exfalso. assert (h <> length l) by (intros ->; rewrite nth_error_len in Hy; discriminate).
            unfold h' in Ee. destruct (Nat.eqb_spec h (length l)); [congruence|]. congruence.
          - unfold h' in Hl1. destruct (Nat.eqb_spec h (length l)); [lia|]. apply Hn.
            rewrite El, <- Hl1. replace (S (length l1)) with (length (l1 ++ [e])) by (rewrite app_length; cbn; lia).
            replace (l1 ++ e :: x :: l2) with ((l1 ++ [e]) ++ x :: l2) by (rewrite <- app_assoc; reflexivity).
            apply nth_error_mid. }
        intros x Hx. destruct l2 as [|y l2]; [destruct Hx|]. destruct Hx as [<-|Hx]; [assumption|].
        rewrite El in Hs. apply sorted_app in Hs as (_ & Hs & _). apply sorted_cons in Hs as [_ Hs].
        apply sorted_cons in Hs as [Hs _]. specialize (Hs x Hx).
        destruct (kge_cases HK _ _ Hd) as [Hy|Hy].
        - subst k. apply (klt_asym HK); assumption.
        - apply (klt_asym HK). eapply (ktr HK); eassumption. }
      rewrite El. replace (l1 ++ e :: l2) with ((l1 ++ [e]) ++ l2) by (rewrite <- app_assoc; reflexivity).
      rewrite lb_prefix_gt; [rewrite app_length; cbn; lia| |assumption].
      intros x Hx. apply in_app_or in Hx as [Hx|[<-|[]]]; [|assumption].
      eapply (ktr HK); [apply L1; exact Hx|assumption].
    - destruct (kltb k (fst e)) eqn:Egt; cbn [fst snd].
      + cbn [skipn Nat.add]. rewrite Nat.sub_0_r, firstn_all. reflexivity.
      + destruct (kge_cases HK _ _ Elt) as [E|E]; [|congruence]. rewrite Nat.sub_0_r. cbn [skipn].
        replace (h' + 1) with (length (l1 ++ [e])) by (rewrite app_length; cbn; lia).
        rewrite El. replace (l1 ++ e :: l2) with ((l1 ++ [e]) ++ l2) by (rewrite <- app_assoc; reflexivity).
        rewrite firstn_mid. subst k. rewrite <- app_assoc. cbn [app Nat.add].
        rewrite !lb_prefix_gt; auto.
        * intros x [<-|Hx]; [apply (kirr HK)|]. apply (klt_asym HK), G2; assumption.
        * intros x [<-|[]]. apply (kirr HK).
  Qed.

  Lemma hint_ok l h x : sorted l -> h <= length l -> good_hint l h (fst x) ->
    fm_insert_hint keqb kltb l h x = fst (fst (fm_insert keqb kltb l x)) /\
    fst (fm_emplace_hint kltb l h x) = fst (fst (fm_insert keqb kltb l x)).
  Proof.
    intros Hs Hh Hg. unfold fm_insert_hint, fm_emplace_hint. rewrite hint_position by assumption.
    rewrite <- (fm_emplace_insert HK x Hs) at 2.
    unfold fm_insert, fm_emplace. destruct (nth_error l (lower_bound kltb (fst x) l)) as [e|]; [|auto].
    split; [destruct (negb (keqb (fst e) (fst x)))|destruct (kltb (fst x) (fst e))]; reflexivity.
  Qed.

  Lemma hint_bad l h x : sorted l -> h < length l -> ~ good_hint l h (fst x) -> 
    assoc (fst x) l = None ->
    ~ sorted (fm_insert_hint keqb kltb l h x) /\
    fm_emplace_hint kltb l h x = (l, false).
  Proof.
    intros Hs Hh Hb Ha.
    destruct (nth_error l h) as [e|] eqn:Ee; [|apply nth_error_None in Ee; lia].
    assert (E1 : kltb (fst e) (fst x) = true).
    { destruct (kltb (fst e) (fst x)) eqn:E; [reflexivity|]. exfalso. apply Hb. right; left. eauto. }
    assert (E2 : exists e', nth_error l (S h) = Some e' /\ kltb (fst e') (fst x) = true).
    { destruct (nth_error l (S h)) as [e'|] eqn:Ee'.
      - exists e'; split; [reflexivity|]. destruct (kltb (fst e') (fst x)) eqn:E; [reflexivity|].
        exfalso. apply Hb. right; right. split; [assumption|]. intros y Hy. congruence.
      - exfalso. apply Hb. right; right. split; [assumption|]. intros y Hy. congruence. }
    destruct E2 as (e' & Ee' & E2).
    destruct (nth_split_sorted _ Ee Hs) as (l1 & l2 & El & Hl1 & L1 & G2).
    assert (Hl2 : exists l3, l2 = e' :: l3).
    { rewrite El, <- Hl1 in Ee'. replace (S (length l1)) with (length (l1 ++ [e])) in Ee' by (rewrite app_length; cbn; lia).
      replace (l1 ++ e :: l2) with ((l1 ++ [e]) ++ l2) in Ee' by (rewrite <- app_assoc; reflexivity).
      rewrite nth_error_app2, Nat.sub_diag in Ee' by lia. destruct l2; [discriminate|]. cbn in Ee'.
      injection Ee' as ->. eauto. }
    destruct Hl2 as (l3 & ->).
    assert (P : lower_bound_in kltb (fst x) l (use_hint kltb l h (fst x)) = S h).
    { unfold use_hint, lower_bound_in. destruct (Nat.eqb_spec (length l) 0); [lia|].
      destruct (Nat.eqb_spec h (length l)); [lia|]. rewrite Ee, E1, (klt_asym HK _ _ E1). cbn [fst snd].
      replace (h + 1 - h) with 1 by lia. rewrite El, <- Hl1, skipn_mid. cbn. rewrite E1. lia. }
    unfold fm_insert_hint, fm_emplace_hint. rewrite P, Ee'. rewrite (klt_neq HK _ _ E2). cbn [negb].
    rewrite (klt_asym HK _ _ E2). split; [|reflexivity].
    unfold vec_insert. rewrite El, <- Hl1.
    replace (S (length l1)) with (length (l1 ++ [e])) by (rewrite app_length; cbn; lia).
    replace (l1 ++ e :: e' :: l3) with ((l1 ++ [e]) ++ e' :: l3) by (rewrite <- app_assoc; reflexivity).
    rewrite firstn_mid, skipn_mid. intros C. apply sorted_app in C as (_ & C & _).
    apply sorted_cons in C as [C _]. specialize (C e' (or_introl eq_refl)). cbn in C.
    rewrite (klt_asym HK _ _ E2) in C. discriminate.
  Qed.

  (** *** merge *)
  Lemma merge_exact coll nocoll a s : sorted a -> sorted s ->
    exists r, fm_merge kltb coll nocoll a s = Ok r /\ sorted r /\
      forall k, assoc k r =
        match assoc k a, assoc k s with
        | Some v, Some w => Some (coll v w)
        | Some v, None => Some (if forallb (fun y => kltb k (fst y)) s then nocoll v else v)
        | None, Some w => Some (nocoll w)
        | None, None => None
        end.
  Proof. intros; apply (fm_insert_range_spec HK); assumption. Qed.

  Lemma merge_union coll nocoll a s : sorted a -> sorted s ->
    (forall v, nocoll v = v) \/ (forall x, In x a -> exists y, In y s /\ kltb (fst x) (fst y) = false) ->
    exists r, fm_merge kltb coll nocoll a s = Ok r /\ sorted r /\
      forall k, assoc k r =
        match assoc k a, assoc k s with
        | Some v, Some w => Some (coll v w)
        | Some v, None => Some v
        | None, Some w => Some (nocoll w)
        | None, None => None
        end.
  Proof.
    intros Ha Hs Hc. destruct (merge_exact coll nocoll Ha Hs) as (r & Er & Hr & Hk).
    exists r; split; [assumption|]. split; [assumption|]. intros k. rewrite Hk.
    destruct (assoc k a) as [v|] eqn:Ea; [|reflexivity]. destruct (assoc k s) as [w|] eqn:Es; [reflexivity|].
    destruct Hc as [Hc|Hc]; [rewrite Hc; destruct (forallb _ s); reflexivity|].
    apply (assoc_In HK) in Ea. destruct (Hc _ Ea) as (y & Hy & Ey). cbn in Ey.
    destruct (forallb (fun y => kltb k (fst y)) s) eqn:Ef; [|reflexivity].
    rewrite forallb_forall in Ef. rewrite (Ef y Hy) in Ey. discriminate.
  Qed.

  Lemma merge_rvalue_exact coll nocoll cap a s : sorted a -> sorted s ->
    exists r, fm_merge_rvalue kltb coll nocoll cap a s = Ok r /\ sorted r /\
      forall k, assoc k r =
        match assoc k a, assoc k s with
        | Some v, Some w => Some (coll v w)
        | Some v, None =>
            if length s + length a <=? cap then Some (nocoll v)
            else Some (if forallb (fun y => kltb k (fst y)) s then nocoll v else v)
        | None, Some w =>
            if length s + length a <=? cap then Some (if forallb (fun y => kltb k (fst y)) a then nocoll w else w)
            else Some (nocoll w)
        | None, None => None
        end.
  Proof.
    intros Ha Hs. unfold fm_merge_rvalue. destruct (length s + length a <=? cap).
    - destruct (fm_insert_range_spec HK (fun a b => coll b a) nocoll Hs Ha) as (r & Er & Hr & Hk).
      exists r; split; [assumption|]. split; [assumption|]. intros k. rewrite Hk.
      destruct (assoc k a), (assoc k s); reflexivity.
    - destruct (fm_insert_range_spec HK coll nocoll Ha Hs) as (r & Er & Hr & Hk).
      exists r; split; [assumption|]. split; [assumption|]. intros k. rewrite Hk.
      destruct (assoc k a), (assoc k s); reflexivity.
  Qed.

  (** *** construction from an arbitrary list *)
  Definition wsorted (l : list entry) : Prop := StronglySorted (fun a b => kltb (fst b) (fst a) = false) l.

  Lemma ins_In (x : entry) l y : In y (ins_sorted kltb x l) <-> y = x \/ In y l.
  Proof.
    induction l as [|z l IH]; cbn; [intuition|].
    destruct (kltb (fst z) (fst x)); cbn; rewrite ?IH; intuition.
  Qed.
  Lemma kle_trans a b c : kltb b a = false -> kltb c b = false -> kltb c a = false.
  Proof.
    intros H1 H2. destruct (kltb c a) eqn:E; [|reflexivity]. exfalso.
    destruct (kge_cases HK _ _ H1) as [<-|H3]; [congruence|].
    assert (kltb c b = true) by (eapply (ktr HK); eassumption). congruence.
  Qed.
  Lemma wsorted_cons e l : wsorted (e :: l) <-> (forall x, In x l -> kltb (fst x) (fst e) = false) /\ wsorted l.
  Proof.
    split.
    - intros H. inversion H as [|? ? H1 H2]; subst. rewrite Forall_forall in H2. auto.
    - intros [H1 H2]. constructor; [assumption|]. apply Forall_forall; assumption.
  Qed.
  Lemma ins_wsorted (x : entry) l : wsorted l -> wsorted (ins_sorted kltb x l).
  Proof.
    induction l as [|z l IH]; intros H; cbn.
    - apply wsorted_cons; split; [intros ? []|constructor].
    - apply wsorted_cons in H as [H1 H2]. destruct (kltb (fst z) (fst x)) eqn:E; apply wsorted_cons; split; auto.
      + intros y Hy. apply ins_In in Hy as [->|Hy]; [apply (klt_asym HK); assumption|auto].
      + intros y [<-|Hy]; [assumption|]. eapply kle_trans; [exact E|auto].
      + apply wsorted_cons; auto.
  Qed.
  Lemma fm_sort_wsorted (l : list entry) : wsorted (fm_sort kltb l).
  Proof. induction l as [|x l IH]; cbn; [constructor|]. apply ins_wsorted, IH. Qed.
  Lemma fm_sort_In (l : list entry) x : In x (fm_sort kltb l) <-> In x l.
  Proof. induction l as [|y l IH]; cbn; [reflexivity|]. rewrite ins_In, IH. intuition. Qed.

  Lemma fu_run_spec (l : list entry) : forall cur, wsorted (cur :: l) ->
    sorted (fu_run kltb (fun a _ => a) cur l) /\
    (forall x, In x (fu_run kltb (fun a _ => a) cur l) -> In x (cur :: l)) /\
    (forall x, In x (cur :: l) -> exists y, In y (fu_run kltb (fun a _ => a) cur l) /\ fst y = fst x).
  Proof.
    induction l as [|e l IH]; intros cur Hw; cbn [fu_run].
    - split; [|split].
      + apply sorted_cons; split; [intros ? []|constructor].
      + auto.
      + intros x Hx; exists x; auto.
    - apply wsorted_cons in Hw as [H1 H2]. destruct (kltb (fst cur) (fst e)) eqn:E.
      + destruct (IH e H2) as (I1 & I2 & I3). split; [|split].
        * apply sorted_cons; split; [|assumption]. intros x Hx. apply I2 in Hx.
          apply wsorted_cons in H2 as [H2 _]. destruct Hx as [<-|Hx]; [assumption|].
          destruct (kge_cases HK _ _ (H2 x Hx)) as [Ex|Ex]; [rewrite Ex; assumption|].
          eapply (ktr HK); eassumption.
        * intros x [<-|Hx]; [left; reflexivity|right; apply I2; assumption].
        * intros x [<-|Hx]; [exists cur; split; [left|]; reflexivity|].
          destruct (I3 x Hx) as (y & Hy & Ey). exists y; split; [right|]; assumption.
      + assert (Ek : fst cur = fst e).
        { destruct (kge_cases HK _ _ E) as [|C]; [assumption|]. rewrite (H1 e) in C by (left; reflexivity). discriminate. }
        assert (Ec : (fst cur, snd cur) = cur) by (destruct cur; reflexivity). rewrite Ec.
        destruct (IH cur) as (I1 & I2 & I3).
        { apply wsorted_cons; split; [intros x Hx; apply H1; right; assumption|].
          apply wsorted_cons in H2; tauto. }
        split; [assumption|split].
        * intros x Hx. apply I2 in Hx as [<-|Hx]; [left; reflexivity|right; right; assumption].
        * intros x [<-|[<-|Hx]]; [apply I3; left; reflexivity| |apply I3; right; assumption].
          destruct (I3 cur (or_introl eq_refl)) as (y & Hy & Ey). exists y; split; congruence.
  Qed.

  Lemma of_range_spec (l : list entry) : l <> [] ->
    exists r, fm_of_range kltb l = Ok r /\ sorted r /\
      (forall x, In x r -> In x l) /\
      (forall x, In x l -> exists v, assoc (fst x) r = Some v).
  Proof.
    intros Hne. unfold fm_of_range, filter_unique.
    destruct (fm_sort kltb l) as [|e r] eqn:E.
    - exfalso. destruct l as [|x l]; [congruence|].
      assert (In x []) by (rewrite <- E; apply fm_sort_In; left; reflexivity). contradiction.
    - pose proof (fm_sort_wsorted l) as Hw. rewrite E in Hw.
      destruct (fu_run_spec Hw) as (I1 & I2 & I3). eexists; split; [reflexivity|].
      split; [assumption|]. split.
      + intros x Hx. apply fm_sort_In. rewrite E. apply I2; assumption.
      + intros x Hx. apply fm_sort_In in Hx. rewrite E in Hx. destruct (I3 x Hx) as (y & Hy & Ey).
        exists (snd y). rewrite <- Ey. apply (In_assoc HK); [assumption|]. destruct y; assumption.
  Qed.

  (** *** equality *)
  Lemma eqb_spec (veqb : V -> V -> bool) a b : (forall u v, veqb u v = true <-> u = v) ->
    fm_eqb keqb veqb a b = true <-> a = b.
  Proof.
    intros Hv. unfold fm_eqb. split.
    - destruct (Nat.eqb_spec (length a) (length b)) as [E|E]; [|discriminate]. cbn [negb].
      revert b E. induction a as [|x a IH]; intros [|y b] E H; try discriminate; auto.
      cbn in H. destruct (keqb (fst x) (fst y) && veqb (snd x) (snd y)) eqn:Ex; [|discriminate].
      apply andb_true_iff in Ex as [E1 E2]. apply (keq HK) in E1. apply Hv in E2.
      f_equal; [destruct x, y; cbn in *; congruence|]. apply IH; auto.
    - intros <-. rewrite Nat.eqb_refl. cbn [negb]. induction a as [|x a IH]; [reflexivity|].
      cbn. rewrite (keq_refl HK). replace (veqb (snd x) (snd x)) with true by (symmetry; apply Hv; reflexivity).
      exact IH.
  Qed.
End Thms.

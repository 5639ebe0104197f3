(** The ranges of blocks: lemmas. *)
From Verif Require Import Base Quantity FlatMap Ring Index SpecIndex Dense IndexProofs BTensor BTensorArith Tensordot BSvd Compact SpecCompact.
Set Implicit Arguments.

Section Loops.
  Variable E : Type.
  Variable same : E -> E -> bool.
  Hypothesis same_refl : forall x, same x x = true.
  Hypothesis same_sym : forall x y, same x y = true -> same y x = true.
  Hypothesis same_trans : forall x y z, same x y = true -> same y z = true -> same x z = true.
  (** The ranges, [x] the first of the current one, [acc] the current one. *)
  Fixpoint cuts (x : E) (acc l : list E) : list (list E) :=
    match l with [] => [acc] | y :: r => if same x y then cuts x (acc ++ [y]) r else acc :: cuts y [y] r end.
  Lemma same_iff x y z : same x y = true -> same x z = same y z.
  Proof.
    intros H. destruct (same x z) eqn:A, (same y z) eqn:B; try reflexivity.
    - rewrite <- B. symmetry. apply same_trans with x; [apply same_sym, H|exact A].
    - rewrite <- A. apply same_trans with y; assumption.
  Qed.
  Lemma count_add x r n : count_from same x r n = n + count_from same x r 0.
  Proof. revert x n. induction r as [|y r IH]; intros x n; cbn [count_from]; [lia|]. rewrite IH, (IH y (0 + _)). lia. Qed.
  Lemma cuts_count r : forall x w acc, same x w = true -> length (cuts x acc r) = count_from same w r 0.
  Proof.
    induction r as [|y r IH]; intros x w acc H; cbn [cuts count_from]; [reflexivity|]. rewrite count_add, (same_iff _ H). destruct (same w y) eqn:Q; cbn [negb length].
    - rewrite (IH x y); [reflexivity|apply same_trans with w; assumption].
    - rewrite (IH y y); [reflexivity|apply same_refl].
  Qed.
  Lemma write_ok {A} (v : A) pre n : write (length pre) v (map Some pre ++ repeat None (S n)) = Ok (map Some (pre ++ [v]) ++ repeat None n).
  Proof. induction pre as [|a pre IH]; [reflexivity|]. cbn [length map app write]. rewrite IH. reflexivity. Qed.
  Lemma fill_ok L : forall l x0 q done fuel pre, L = done ++ (x0 :: q) ++ l -> 2 * length l + 2 <= fuel ->
    fill same fuel L (length done) (length done + S (length q)) (length pre) (map Some pre ++ repeat None (length (cuts x0 (x0 :: q) l))) = Some (Ok (map Some (pre ++ cuts x0 (x0 :: q) l))).
  Proof.
    assert (R : forall done (p l : list E), firstn (length done + length p - length done) (skipn (length done) (done ++ p ++ l)) = p).
    { intros done p l. rewrite skipn_app, skipn_all, Nat.sub_diag. cbn [skipn app]. rewrite firstn_app. replace (length done + length p - length done) with (length p) by lia. rewrite firstn_all, Nat.sub_diag. cbn. apply app_nil_r. }
    induction l as [|y l IH]; intros x0 q done fuel pre HL HF; (destruct fuel as [|f]; [cbn in HF; lia|]); cbn [fill]; pose proof (f_equal (@length E) HL) as HLen; rewrite !app_length in HLen; cbn [length] in HLen;
      rewrite (proj2 (Nat.eqb_neq (length done) (length L))) by lia.
    - rewrite (proj2 (Nat.eqb_eq _ (length L))) by lia. cbn [cuts length]. assert (RR := R done (x0 :: q) []). cbn [length] in RR. rewrite HL. rewrite RR. rewrite write_ok.
      destruct f as [|f]; [cbn in HF; lia|]. cbn [fill]. rewrite <- HL, (proj2 (Nat.eqb_eq _ (length L))) by lia. cbn [repeat]. rewrite app_nil_r. reflexivity.
    - rewrite (proj2 (Nat.eqb_neq _ (length L))) by lia.
      assert (N1 : nth_error L (length done) = Some x0) by (rewrite HL, nth_error_app2, Nat.sub_diag by lia; reflexivity).
      assert (N2 : nth_error L (length done + S (length q)) = Some y). { rewrite HL, nth_error_app2 by lia. replace (length done + S (length q) - length done) with (length (x0 :: q)) by (cbn; lia). rewrite nth_error_app2, Nat.sub_diag by lia. reflexivity. }
      rewrite N1, N2. cbn [cuts]. destruct (same x0 y) eqn:Q; cbn [negb].
      + specialize (IH x0 (q ++ [y]) done f pre). cbn [app] in IH |- *. rewrite app_length in IH. cbn [length] in IH. replace (S (length done + S (length q))) with (length done + S (length q + 1)) by lia. apply IH; [|cbn in HF; lia].
        rewrite HL. cbn [app]. rewrite <- app_assoc. reflexivity.
      + assert (RR := R done (x0 :: q) (y :: l)). cbn [length] in RR |- *. rewrite HL. rewrite RR, <- HL, write_ok. specialize (IH y [] (done ++ x0 :: q) f (pre ++ [x0 :: q])). rewrite !app_length in IH. cbn [length] in IH.
        replace (S (length done + S (length q))) with (length done + S (length q) + 1) by lia. replace (S (length pre)) with (length pre + 1) by lia. rewrite IH; [|rewrite HL, <- !app_assoc; reflexivity|cbn in HF; lia]. rewrite <- app_assoc. reflexivity.
  Qed.
  Definition all_cuts (L : list E) : list (list E) := match L with [] => [] | x :: r => cuts x [x] r end.
  Lemma count_cuts L : compact_tensor_count same L = length (all_cuts L).
  Proof. destruct L as [|x r]; [reflexivity|]. cbn [compact_tensor_count all_cuts]. symmetry. apply cuts_count, same_refl. Qed.
  Lemma ranges_ok L fuel : 2 * length L + 1 <= fuel -> compact_ranges same fuel L = Some (Ok (map Some (all_cuts L))).
  Proof.
    intros HF. unfold compact_ranges. rewrite count_cuts. destruct L as [|x r]; [destruct fuel; [cbn in HF; lia|]; reflexivity|].
    cbn [all_cuts]. exact (@fill_ok (x :: r) r x [] [] fuel [] eq_refl ltac:(cbn in HF; lia)).
  Qed.
  (** *)
  Lemma cuts_head x acc l : exists t rs, cuts x acc l = (acc ++ t) :: rs.
  Proof. revert x acc. induction l as [|y r IH]; intros x acc; cbn [cuts]; [exists [], []; rewrite app_nil_r; reflexivity|]. destruct (same x y); [|exists []; rewrite app_nil_r; eauto]. destruct (IH x (acc ++ [y])) as (t & rs & ->). exists (y :: t), rs. rewrite <- app_assoc. reflexivity. Qed.
  Lemma cuts_spec l : forall x q, Forall (fun z => same x z = true) q -> cut_into (fun a b => same a b = true) (x :: q ++ l) (cuts x (x :: q) l).
  Proof.
    assert (A : forall x q, Forall (fun z => same x z = true) q -> forall a b, In a (x :: q) -> In b (x :: q) -> same a b = true).
    { intros x q HQ a b Ha Hb. assert (S1 : forall z, In z (x :: q) -> same x z = true) by (intros z [<-|Hz]; [apply same_refl|rewrite Forall_forall in HQ; auto]). apply same_trans with x; [apply same_sym|]; auto. }
    induction l as [|y l IH]; intros x q HQ; cbn [cuts].
    - split; [reflexivity|]. split; [repeat constructor; discriminate|]. split; [constructor; [apply A, HQ|constructor]|]. intros pre r r' post Q. destruct pre as [|? [|? ?]]; discriminate.
    - destruct (same x y) eqn:Q.
      + specialize (IH x (q ++ [y])). cbn [app] in IH |- *. rewrite <- app_assoc in IH. apply IH. apply Forall_app; auto.
      + destruct (IH y [] (Forall_nil _)) as (C1 & C2 & C3 & C4). split; [|split; [|split]].
        * cbn [concat]. cbn [app] in C1. rewrite C1. reflexivity.
        * constructor; [discriminate|exact C2].
        * constructor; [apply A, HQ|exact C3].
        * intros pre r r' post QQ. destruct pre as [|p0 pre]; [|injection QQ as _ QQ; apply C4 with pre post; exact QQ].
          destruct (cuts_head y [y] l) as (t & rs & EC). cbn [app] in QQ. injection QQ as <- QR. rewrite EC in QR. injection QR as <- _.
          intros p1 a b p2 QA QB SA. cbn [app] in QB. injection QB as <- _. assert (Ia : In a (x :: q)) by (match type of QA with ?r = _ => change (In a r) end; rewrite QA; apply in_or_app; right; left; reflexivity).
          assert (SX : same x a = true) by (apply (A x q HQ); [left; reflexivity|exact Ia]). rewrite (same_trans SX SA) in Q. discriminate.
  Qed.
  Lemma all_cuts_spec L : cut_into (fun a b => same a b = true) L (all_cuts L).
  Proof.
    destruct L as [|x r]; [|exact (@cuts_spec r x [] (Forall_nil _))]. split; [reflexivity|]. split; [constructor|]. split; [constructor|]. intros pre a b post Q. destruct pre; discriminate.
  Qed.
End Loops.

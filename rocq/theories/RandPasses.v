(** The number of passes of [random_bMPS] is the number of distinct physical dimensions. *)
From Verif Require Import Base Quantity Ring Index SpecIndex Dense FlatMap BTensor SpecBTensor IndexProofs Num Truncate Rand RandChain RandBDmrg.
From Coq Require Import Permutation.
Set Implicit Arguments.

Section P.
  Context {G : abgroup}.
  Implicit Types a b c : list G.

  Lemma q_lex_irrefl a : q_lex a a = false.
  Proof. induction a as [|x a IH]; cbn; [reflexivity|]. rewrite qltb_irrefl. exact IH. Qed.
  Lemma q_lex_total a b : q_lex a b = true \/ a = b \/ q_lex b a = true.
  Proof.
    revert b. induction a as [|x a IH]; intros [|y b]; cbn; auto. destruct (qltb G x y) eqn:E; [auto|]. destruct (qltb G y x) eqn:E'; [auto|].
    destruct (qltb_total G x y) as [H|[->|H]]; try congruence. destruct (IH b) as [H|[->|H]]; auto.
  Qed.
  Lemma q_lex_trans a b c : q_lex a b = true -> q_lex b c = true -> q_lex a c = true.
  Proof.
    revert b c. induction a as [|x a IH]; intros [|y b] [|z c]; cbn; try congruence.
    destruct (qltb G x y) eqn:E1.
    - intros _. destruct (qltb G y z) eqn:E2; [rewrite (qltb_trans G _ _ _ E1 E2); auto|]. destruct (qltb G z y) eqn:E3; [congruence|].
      intros _. destruct (qltb_total G y z) as [H|[<-|H]]; try congruence. rewrite E1. reflexivity.
    - destruct (qltb G y x) eqn:E2; [congruence|]. destruct (qltb_total G x y) as [H|[<-|H]]; try congruence. intros H1.
      destruct (qltb G x z); [auto|]. destruct (qltb G z x); [auto|]. intros H2. eapply IH; eassumption.
  Qed.
  Lemma q_equal_spec a b : q_equal a b = true <-> a = b.
  Proof.
    revert b. induction a as [|x a IH]; intros [|y b]; cbn; split; try congruence. - rewrite Bool.andb_true_iff, qeqb_spec, IH. intros [-> ->]. reflexivity.
    - intros E. injection E as -> ->. apply Bool.andb_true_iff. split; [apply qeqb_spec; reflexivity|apply IH; reflexivity].
  Qed.

  Inductive sorted : list (list G) -> Prop :=
  | s_nil : sorted []
  | s_cons a l : (forall b, In b l -> q_lex b a = false) -> sorted l -> sorted (a :: l).
  Lemma insert_in a l x : In x (r_insert a l) <-> x = a \/ In x l.
  Proof. induction l as [|b l IH]; cbn; [intuition congruence|]. destruct (q_lex b a); cbn; [rewrite IH|]; intuition congruence. Qed.
  Lemma insert_sorted a (l : list (list G)) : sorted l -> sorted (r_insert a l).
  Proof.
    induction 1 as [|b l H S IH]; cbn; [constructor; [intros ? []|constructor]|]. destruct (q_lex b a) eqn:E.
    - constructor; [|exact IH]. intros x Hx. apply insert_in in Hx. destruct Hx as [->|Hx]; [|auto]. destruct (q_lex a b) eqn:E'; [|reflexivity]. rewrite <- (q_lex_irrefl b). symmetry. eapply q_lex_trans; eassumption.
    - constructor; [|constructor; assumption]. intros x [<-|Hx]; [exact E|]. destruct (q_lex x a) eqn:E'; [|reflexivity].
      destruct (q_lex_total x b) as [K|[K|K]]; [rewrite (H x Hx) in K; discriminate|congruence|]. rewrite <- E. symmetry. eapply q_lex_trans; eassumption.
  Qed.
  Lemma sort_in (l : list (list G)) x : In x (r_sort l) <-> In x l.
  Proof. unfold r_sort; induction l as [|a l IH]; cbn; [tauto|]. rewrite insert_in, IH. intuition. Qed.
  Lemma sort_sorted (l : list (list G)) : sorted (r_sort l).
  Proof. unfold r_sort; induction l; cbn; [constructor|apply insert_sorted; assumption]. Qed.

  Lemma changes_count (l : list (list G)) : sorted l -> l <> [] -> exists u, NoDup u /\ (forall x, In x u <-> In x l) /\ length u = 1 + changes l.
  Proof.
    induction 1 as [|a l H S IH]; [congruence|]. intros _. destruct l as [|b l]; [exists [a]; split; [repeat constructor; intros []|split; [tauto|reflexivity]]|].
    destruct IH as (u & ND & I & L); [discriminate|]. cbn [changes]. destruct (q_equal a b) eqn:E.
    - apply q_equal_spec in E. subst b. exists u. split; [exact ND|]. split; [|exact L]. intros x. rewrite I. cbn. tauto.
    - exists (a :: u). split; [constructor; [|exact ND]|split; [intros x; cbn [In]; rewrite I; cbn; tauto|cbn [length]; rewrite L; cbn [changes Nat.add]; reflexivity]].
      rewrite I. intros [->|Hx]; [rewrite (proj2 (q_equal_spec a a) eq_refl) in E; discriminate|].
      inversion S as [|? ? H' _]; subst. pose proof (H b (or_introl eq_refl)) as K1. pose proof (H' a Hx) as K2. destruct (q_lex_total a b) as [K|[K|K]]; [congruence| |congruence].
      subst b. rewrite (proj2 (q_equal_spec a a) eq_refl) in E. discriminate.
  Qed.
  Lemma passes (specs : list (list G)) n : n_pass specs = Ok n -> exists u, NoDup u /\ (forall x, In x u <-> In x specs) /\ length u = n.
  Proof.
    destruct specs as [|a l]; cbn; [discriminate|]. intros E. injection E as <-. destruct (@changes_count (r_sort (a :: l)) (sort_sorted _)) as (u & ND & I & L).
    - intros E. assert (In a (r_sort (a :: l))) by (apply sort_in; left; reflexivity). rewrite E in H. destruct H.
    - exists u. split; [exact ND|]. split; [|exact L]. intros x. rewrite I. apply sort_in.
  Qed.
End P.

Lemma random_passes (G : abgroup) (N : numeric) src rnd bd (phys : list (btensor G N)) total out :
  Forall (@meta_ok G N) phys -> random_bMPS_list src rnd bd phys total = Ok out ->
  exists u, NoDup u /\ (forall c, In c u <-> exists P, In P phys /\ nth 0 (qlegs P) [] = c) /\ random_bMPS (ndiv N) (n_sqrt N) src rnd bd phys total (length u) = Ok out.
Proof.
  intros M. unfold random_bMPS_list. destruct (rmapM _ phys) as [specs| |] eqn:ES; cbn; try discriminate. destruct (n_pass specs) as [n| |] eqn:EP; cbn; try discriminate. intros EO.
  destruct (passes _ EP) as (u & ND & I & L). exists u. split; [exact ND|]. split; [|rewrite L; exact EO]. intros c. rewrite I. clear - ES M.
  revert specs ES. induction M as [|P l (MP & _) M IH]; cbn; intros specs ES; [injection ES as <-; cbn; firstorder|].
  destruct (b_rank P =? 0) eqn:ER; [discriminate|]. cbn in ES. destruct (rmapM _ l) as [sl| |] eqn:EL; cbn in ES; try discriminate. injection ES as <-. cbn. rewrite (IH sl eq_refl).
  rewrite prange_unpack by (apply Nat.eqb_neq in ER; lia). change (unpack (b_sbd P) (b_cv P)) with (qlegs P). split.
  - intros [H|(P' & H1 & H2)]; [exists P; auto|exists P'; auto].
  - intros (P' & [<-|H1] & H2); [auto|right; exists P'; auto].
Qed.

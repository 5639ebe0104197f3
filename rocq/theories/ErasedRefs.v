(** References to type-erased quantities, and what goes wrong with them and with moved-from variables. *)
From Coq Require Import Lia.
From Verif Require Import Base Quantity Erased SpecErased DmrgProofs ErasedProofs ErasedThms.
Set Implicit Arguments.

Section ER.
  Variable F : family.
  Notation qv := (qv F). Notation st := (st F).

  (** ** A variable that is left its cell *)
  Definition stays (s s' : st) (i p : nat) : Prop :=
    nth_error (vars s') i = Some (Some p) /\ forall r q, nth_error (refs s) r = Some q -> nth_error (refs s') r = Some q.
  Definition stays_out (s : st) (i p : nat) (r : outcome F) : Prop := match r with Done s' | Thrown _ s' => stays s s' i p | Undef _ => True end.

  Section One.
    Variables (s : st) (i p : nat).
    Hypothesis Hi : nth_error (vars s) i = Some (Some p).
    Lemma st_eq (s' : st) : vars s' = vars s -> refs s' = refs s -> stays s s' i p.
    Proof. intros E1 E2. split; [now rewrite E1|intros; now rewrite E2]. Qed.
    Lemma st_new (s' : st) c : vars s' = vars s ++ [c] -> refs s' = refs s -> stays s s' i p.
    Proof. intros E1 E2. split; [rewrite E1, nth_error_app1 by (eapply nth_error_lt; eauto); assumption|intros; now rewrite E2]. Qed.
    Lemma st_set (s' : st) j c : j <> i -> vars s' = upd (vars s) j c -> j < length (vars s) -> refs s' = refs s -> stays s s' i p.
    Proof. intros N E1 L E2. split; [rewrite E1, nth_error_upd by assumption; destruct (Nat.eqb_spec i j); congruence|intros; now rewrite E2]. Qed.
    Lemma st_the {A} (r : result A) k : (forall a, r = Ok a -> stays_out s i p (k a)) -> stays_out s i p (the s r k).
    Proof. intros H. destruct r; cbn; auto. now apply st_eq. Qed.
    Lemma st_both a b f first : stays_out s i p (both s a b f first).
    Proof.
      unfold both. match goal with |- stays_out _ _ _ (match ?r with _ => _ end) => destruct r as [[[[q r'] v] u]|e|] end; cbn; auto; [|now apply st_eq].
      destruct (f v u); cbn; auto; now apply st_eq.
    Qed.
    Lemma st_temp v (r : result qv) work : (work (alloc s v) (fresh s) = the (alloc s v) r (fun x => Done (put (alloc s v) (fresh s) (Some x)))) -> stays_out s i p (via_temporary s v work).
    Proof.
      intros W. destruct r as [x|e|]; cbn in W.
      - rewrite (temp_done _ W). cbn. eapply st_new; reflexivity.
      - rewrite (temp_thrown _ W). now apply st_eq.
      - unfold via_temporary. rewrite W. exact I.
    Qed.
    Lemma st_release (s' : st) c : stays s s' i p -> stays_out s i p (release s' c).
    Proof. intros H. destruct c as [q|]; cbn; auto. destruct (load s' q); cbn; auto. Qed.
  End One.
  Lemma st_move (s0 s : st) i p j : stays s0 s i p -> j <> i -> stays_out s0 i p (move_out s j).
  Proof.
    intros [H1 H2] N. unfold move_out, own. destruct (nth_error (vars s) j) as [c|] eqn:E; cbn; auto.
    pose proof (nth_error_lt _ _ E). split; [|exact H2]. cbn. rewrite nth_error_app1 by (rewrite upd_length by assumption; eapply nth_error_lt; eauto).
    rewrite nth_error_upd by assumption. destruct (Nat.eqb_spec i j); congruence.
  Qed.

  Lemma step_stays (s : st) o i p : nth_error (vars s) i = Some (Some p) -> keeps i o -> stays_out s i p (step s o).
  Proof.
    intros Hi K. pose proof (nth_error_lt _ _ Hi) as Li. destruct o; cbn [step keeps] in *; try (now apply st_both); try (eapply st_move; [now apply st_eq|assumption]);
      try (apply st_the; [assumption|intros x Hx]); try (cbn; eapply st_new; [eassumption|reflexivity|reflexivity]).
    - apply st_the; [assumption|intros y Hy]. apply own_nth in Hx. apply own_nth in Hy. destruct K as [K1 K2]. cbn.
      split; [|auto]. cbn. rewrite nth_error_upd by (rewrite upd_length; eapply nth_error_lt; eauto). rewrite nth_error_upd by (eapply nth_error_lt; eauto).
      destruct (Nat.eqb_spec i j), (Nat.eqb_spec i i0); congruence.
    - apply st_the; [assumption|intros y Hy]. apply own_nth in Hy. apply st_release. apply st_set with (j := i0) (c := Some (fresh s)); auto. eapply nth_error_lt; eauto.
    - apply st_the; [assumption|intros y Hy]. apply own_nth in Hx. apply own_nth in Hy. destruct K as [K1 K2]. cbn.
      split; [|auto]. cbn. rewrite nth_error_upd by (rewrite upd_length; eapply nth_error_lt; eauto). rewrite nth_error_upd by (eapply nth_error_lt; eauto).
      destruct (Nat.eqb_spec i j), (Nat.eqb_spec i i0); congruence.
    - destruct x as [[[q r] v] y]. now apply st_eq.
    - destruct x as [q v]. now apply st_eq.
    - destruct x as [q v]. now apply st_temp with (r := do w <- load (alloc s v) q ; q_op v w).
    - pose proof (@st_both s i p Hi a (Var j) (@q_op F) false) as B. destruct (both s a (Var j) _ false) as [s1|e s1|]; cbn in *; auto. eapply st_move; eauto.
    - pose proof (@st_both s i p Hi (Var i0) b (@q_op F) true) as B. destruct (both s (Var i0) b _ true) as [s1|e s1|]; cbn in *; auto. eapply st_move; eauto.
    - now apply st_temp with (r := Ok (q_inv x)).
    - destruct x as [q v]. eapply st_move; [now apply st_eq|assumption].
    - cbn. split; [assumption|]. cbn. intros r q H. rewrite nth_error_app1 by (eapply nth_error_lt; eauto). assumption.
    - apply own_nth in Hx. apply st_release. apply st_set with (j := i0) (c := None); auto. eapply nth_error_lt; eauto.
  Qed.
  Lemma run_stays l : forall (s s' : st) t i p, nth_error (vars s) i = Some (Some p) -> Forall (keeps i) l -> run l s = Some (t, s') -> stays s s' i p.
  Proof.
    induction l as [|o l IH]; intros s s' t i p Hi K; cbn [run].
    - intros [= <- <-]. now apply st_eq.
    - apply Forall_cons_iff in K. destruct K as [K Kl]. pose proof (@step_stays s o i p Hi K) as M. destruct (step s o) as [s1|e s1|]; cbn in M; [| |discriminate];
        destruct M as [M1 M2]; (destruct (run l s1) as [[t1 s2]|] eqn:E; [|discriminate]); cbn; intros [= <- <-];
        destruct (IH _ _ _ _ _ M1 Kl E) as [N1 N2]; (split; [assumption|auto]).
  Qed.
  Lemma run_app l1 : forall l2 (s : st), run (l1 ++ l2) s = match run l1 s with Some (t1, s1) => option_map (fun '(t2, s2) => (t1 ++ t2, s2)) (run l2 s1) | None => None end.
  Proof.
    induction l1 as [|o l1 IH]; intros l2 s; cbn [run app].
    - destruct (run l2 s) as [[t s']|]; reflexivity.
    - destruct (step s o) as [s1|e s1|]; auto; rewrite IH; destruct (run l1 s1) as [[t1 s2]|]; cbn; auto; destruct (run l2 s2) as [[t2 s3]|]; reflexivity.
  Qed.

  Definition refs_out (s : st) (n : nat) (r : outcome F) : Prop := match r with Done s' => length (refs s') = length (refs s) + n | Thrown _ s' => length (refs s') = length (refs s) + n | Undef _ => True end.
  Lemma ro_the {A} (s : st) (r : result A) k : (forall a, r = Ok a -> refs_out s 0 (k a)) -> refs_out s 0 (the s r k).
  Proof. intros H. destruct r; cbn; auto. Qed.
  Lemma ro_both (s : st) a b f first : refs_out s 0 (both s a b f first).
  Proof.
    unfold both. match goal with |- refs_out _ _ (match ?r with _ => _ end) => destruct r as [[[[q r'] v] u]|e|] end; cbn; auto. destruct (f v u); cbn; auto.
  Qed.
  Lemma ro_temp (s : st) v (r : result qv) work : (work (alloc s v) (fresh s) = the (alloc s v) r (fun x => Done (put (alloc s v) (fresh s) (Some x)))) -> refs_out s 0 (via_temporary s v work).
  Proof.
    intros W. destruct r as [x|e|]; cbn in W; [rewrite (temp_done _ W)|rewrite (temp_thrown _ W)|unfold via_temporary; rewrite W]; cbn; auto.
  Qed.
  Lemma ro_move (s : st) s1 j : length (refs s1) = length (refs s) -> refs_out s 0 (move_out s1 j).
  Proof. intros H. unfold move_out. destruct (own s1 j); cbn; lia. Qed.
  Lemma ro_release (s : st) s1 c : length (refs s1) = length (refs s) -> refs_out s 0 (release s1 c).
  Proof. intros H. destruct c; cbn; [destruct (load s1 n); cbn|]; auto; lia. Qed.
  Lemma step_refs (s : st) o : is_take o = false -> refs_out s 0 (step s o).
  Proof.
    intros K. destruct o; cbn [step is_take] in *; try discriminate; try apply ro_both; try (now apply ro_move); try (apply ro_the; intros x Hx); try (cbn; lia).
    - apply ro_the; intros y Hy. cbn; lia.
    - apply ro_the; intros y Hy. now apply ro_release.
    - apply ro_the; intros y Hy. cbn; lia.
    - destruct x as [[[q r] v] y]. cbn; lia.
    - destruct x as [q v]. cbn; lia.
    - destruct x as [q v]. now apply ro_temp with (r := do w <- load (alloc s v) q ; q_op v w).
    - pose proof (ro_both s a (Var j) (@q_op F) false) as B. destruct (both s a (Var j) _ false) as [s1|e s1|]; cbn in *; auto. apply ro_move. lia.
    - pose proof (ro_both s (Var i) b (@q_op F) true) as B. destruct (both s (Var i) b _ true) as [s1|e s1|]; cbn in *; auto. apply ro_move. lia.
    - now apply ro_temp with (r := Ok (q_inv x)).
    - destruct x as [q v]. now apply ro_move.
    - now apply ro_release.
  Qed.
  Lemma run_refs l : forall (s s' : st) t, run l s = Some (t, s') -> length (refs s') = length (refs s) + length (filter (@is_take F) l).
  Proof.
    induction l as [|o l IH]; intros s s' t; cbn [run].
    - intros [= <- <-]. cbn; lia.
    - cbn [filter]. destruct (is_take o) eqn:K.
      + destruct o; try discriminate. cbn [step]. destruct (addr s (Var i)) as [p|e|] eqn:A; cbn [the]; [| |discriminate].
        * destruct (run l _) as [[t1 s2]|] eqn:E; [|discriminate]. cbn. intros [= <- <-]. apply IH in E. cbn in E. rewrite app_length in E. cbn in *. lia.
        * cbn in A. unfold own in A. destruct (nth_error (vars s) i) as [[]|]; discriminate.
      + pose proof (step_refs s o K) as M. destruct (step s o) as [s1|e s1|]; cbn in M; [| |discriminate];
          (destruct (run l s1) as [[t1 s2]|] eqn:E; [|discriminate]); cbn; intros [= <- <-]; apply IH in E; lia.
  Qed.

  Lemma reference l1 i l2 t s : run (l1 ++ TakeRef F i :: l2) (start F) = Some (t, s) -> Forall (keeps i) l2 ->
    let r := length (filter (@is_take F) l1) in exists p v, addr s (Ref r) = Ok p /\ addr s (Var i) = Ok p /\ load s p = Ok v /\ at_ (values s) i v.
  Proof.
    intros H K r. pose proof (program_owned _ H) as Ho. rewrite run_app in H. destruct (run l1 (start F)) as [[t1 s1]|] eqn:E1; [|discriminate].
    apply run_refs in E1. cbn in E1. fold r in E1. cbn [run step] in H. destruct (addr s1 (Var i)) as [p|e|] eqn:A; cbn [the] in H; try discriminate.
    2: { cbn in A. unfold own in A. destruct (nth_error (vars s1) i) as [[]|]; discriminate. }
    match type of H with context [run l2 ?x] => set (s2 := x) in * end.
    destruct (run l2 s2) as [[t2 s3]|] eqn:E2; [|discriminate]. cbn in H. injection H as _ ->. apply addr_var in A.
    assert (B : nth_error (vars s2) i = Some (Some p)) by exact A.
    destruct (@run_stays l2 _ _ _ _ _ B K E2) as [M1 M2]. destruct (own_live Ho _ M1) as [v Hv]. exists p, v.
    split; [|split; [now apply addr_var|split; [now apply load_ok|eapply own_holds; eauto]]].
    cbn. rewrite (M2 r p); [reflexivity|]. cbn. rewrite nth_error_snoc, E1, Nat.eqb_refl. reflexivity.
  Qed.
  Lemma alias l1 i l2 t s : run (l1 ++ TakeRef F i :: l2) (start F) = Some (t, s) -> Forall (keeps i) l2 ->
    let r := length (filter (@is_take F) l1) in
    (exists v, value_of s (Ref r) = Ok v /\ at_ (values s) i v) /\
    (forall b, step s (OpEq F (Ref r) b) = step s (OpEq F (Var i) b) /\ step s (OpEq F b (Ref r)) = step s (OpEq F b (Var i))) /\
    step s (InvIn F (Ref r)) = step s (InvIn F (Var i)) /\
    (forall j, step s (SetRef F r (Var j)) = step s (AssignCopy F i j)) /\
    (forall b, step s (SwapRef F (Ref r) b) = step s (SwapRef F (Var i) b)) /\
    (forall b, step s (Mul F (Ref r) b) = step s (Mul F (Var i) b)).
  Proof.
    intros H K r. destruct (reference l1 H K) as (p & v & A1 & A2 & L & V). fold r in A1.
    split; [exists v; split; [unfold value_of; rewrite A1; exact L|exact V]|].
    split; [intros b; cbn [step]; unfold both; rewrite A1, A2; auto|]. split; [cbn [step]; now rewrite A1, A2|].
    split; [intros j; cbn [step]; unfold both; now rewrite A1, A2|]. split; intros b; cbn [step]; now rewrite A1, A2.
  Qed.

  (** ** What goes wrong *)
  Variables v u : qv.
  Lemma assign_type : ~ same v u -> exists s, run [NewVal v; NewVal u; AssignCopy F 0 1] (start F) = Some ([None; None; Some BadCast], s) /\ values s = [Some v; Some u].
  Proof.
    intros N. eexists; split; [cbn; unfold both; cbn; rewrite virt_other by assumption; reflexivity|reflexivity].
  Qed.
  Lemma assign_moved : run [NewVal v; NewMove F 0; AssignCopy F 0 1] (start F) = None.
  Proof. reflexivity. Qed.
  Lemma use_moved b : run [NewVal v; NewMove F 0; OpEq F (Var 0) b] (start F) = None.
  Proof. reflexivity. Qed.
  Lemma multiplied_moved : run [NewVal v; NewVal v; MulTo F (Var 0) 1; AssignCopy F 1 0] (start F) = None.
  Proof.
    cbn. unfold both; cbn. destruct (op_same (eq_refl : same v v)) as (x & E & _). rewrite E. reflexivity.
  Qed.
  Lemma ref_swapped : exists s, run [NewVal v; NewVal u; TakeRef F 0; SwapVar F 0 1] (start F) = Some ([None; None; None; None], s) /\
    value_of s (Ref 0) = Ok v /\ values s = [Some u; Some v].
  Proof. eexists; split; [reflexivity|]. split; reflexivity. Qed.
  Lemma ref_assigned : exists s, run [NewVal v; NewVal u; TakeRef F 0; AssignRef F 0 (Var 1)] (start F) = Some ([None; None; None; None], s) /\
    value_of s (Ref 0) = UB /\ values s = [Some u; Some u].
  Proof. eexists; split; [reflexivity|]. split; reflexivity. Qed.
  (** [a = a * b] *)
  Lemma ref_product : same v u -> exists s x, run [NewVal v; NewVal u; TakeRef F 0; Mul F (Var 0) (Var 1); AssignMove F 0 2; Destroy F 2] (start F) = Some ([None; None; None; None; None; None], s) /\
    product v u x /\ values s = [Some x; Some u; None] /\ value_of s (Ref 0) = UB.
  Proof.
    intros S. destruct (op_same S) as (x & E & P).
    eexists; exists x. split; [cbn; unfold via_temporary; cbn; rewrite E; cbn; reflexivity|]. split; [assumption|]. split; reflexivity.
  Qed.

  (** ** Comparisons *)
  Lemma compare A (f : forall t, f_grp F t -> f_grp F t -> A) (s : st) i j : owned s ->
    (forall t (a b : f_grp F t), at_ (values s) i (existT _ t a) -> at_ (values s) j (existT _ t b) -> observe f s (Var i) (Var j) = Ok (f t a b)) /\
    (forall x y, at_ (values s) i x -> at_ (values s) j y -> ~ same x y -> observe f s (Var i) (Var j) = Throw BadCast).
  Proof.
    intros Ho.
    assert (R : forall k x, at_ (values s) k x -> value_of s (Var k) = Ok x).
    { intros k x H. destruct (at_own Ho H) as (p & H1 & H2). unfold value_of. rewrite (proj2 (addr_var s k p) H1). now apply load_ok. }
    split; intros; unfold observe; rewrite (R _ _ H), (R _ _ H0); cbn [rbind]; [apply virt_same|now apply virt_other].
  Qed.
End ER.

Lemma program_values_from F l0 t0 s0 l : run l0 (start F) = Some (t0, s0) -> Forall (@plain F) l ->
  forall t w, (exists s, run l s0 = Some (t, s) /\ values s = w) <-> vruns (values s0) l t w.
Proof.
  intros H0 Hl t w. pose proof (run_plain (program_owned _ H0) Hl) as H. destruct (run l s0) as [[t' s']|].
  - destruct H as (_ & R & U). split.
    + intros (s & [= <- <-] & <-). exact R.
    + intros Hr. destruct (U _ _ Hr) as [-> ->]. eauto.
  - split; [intros (s & Hs & _); discriminate|]. intros Hr. destruct (H _ _ Hr).
Qed.
Lemma program_compare F A (f : forall t, f_grp F t -> f_grp F t -> A) l t s i j : run l (start F) = Some (t, s) ->
  (forall g (a b : f_grp F g), at_ (values s) i (existT _ g a) -> at_ (values s) j (existT _ g b) -> observe f s (Var i) (Var j) = Ok (f g a b)) /\
  (forall x y, at_ (values s) i x -> at_ (values s) j y -> ~ same x y -> observe f s (Var i) (Var j) = Throw BadCast).
Proof. intros H. exact (compare f i j (program_owned _ H)). Qed.
Lemma references_fail F (v u : qv F) : same v u ->
  (exists s, run [NewVal v; NewVal u; TakeRef F 0; SwapVar F 0 1] (start F) = Some ([None; None; None; None], s) /\ value_of s (Ref 0) = Ok v /\ values s = [Some u; Some v]) /\
  (exists s, run [NewVal v; NewVal u; TakeRef F 0; AssignRef F 0 (Var 1)] (start F) = Some ([None; None; None; None], s) /\ value_of s (Ref 0) = UB /\ values s = [Some u; Some u]) /\
  (exists s x, run [NewVal v; NewVal u; TakeRef F 0; Mul F (Var 0) (Var 1); AssignMove F 0 2; Destroy F 2] (start F) = Some ([None; None; None; None; None; None], s) /\
    product v u x /\ values s = [Some x; Some u; None] /\ value_of s (Ref 0) = UB).
Proof. intros H. split; [apply ref_swapped|]. split; [apply ref_assigned|now apply ref_product]. Qed.
Lemma moved_fail F (v : qv F) :
  run [NewVal v; NewMove F 0; AssignCopy F 0 1] (start F) = None /\
  (forall b, run [NewVal v; NewMove F 0; OpEq F (Var 0) b] (start F) = None) /\
  run [NewVal v; NewVal v; MulTo F (Var 0) 1; AssignCopy F 1 0] (start F) = None.
Proof. split; [apply assign_moved|]. split; [intros; apply use_moved|apply multiplied_moved]. Qed.

(** Proofs about the conserved quantities of Quantity.v. *)
From Verif Require Import Base Quantity SpecQuantity.
From Coq Require Import ZifyBool Eqdep_dec.
Ltac Zify.zify_post_hook ::= Z.div_mod_to_equations.
Local Open Scope Z_scope.

Lemma legal_b N a : c_legal N a = true <-> 0 <= a < N.
Proof. unfold c_legal; lia. Qed.

Lemma u16_id z : 0 <= z < 65536 -> u16 z = z.
Proof. unfold u16; intros; apply Z.mod_small; lia. Qed.

Lemma i16_id z : -32768 <= z <= 32767 -> i16 z = z.
Proof. unfold i16; intros; rewrite Z.mod_small; lia. Qed.

Lemma c_op_spec N a b : 1 <= N <= 32768 -> 0 <= a < N -> 0 <= b < N ->
  c_op N a b = (a + b) mod N.
Proof.
  intros HN Ha Hb. unfold c_op, c_op_cond. cbn [b2z].
  rewrite (u16_id (a + 1 * b)) by lia.
  destruct (N <=? a + 1 * b) eqn:E; cbn [b2z].
  - rewrite u16_id by lia.
    apply Z.mod_unique with 1; lia.
  - rewrite u16_id by lia.
    apply Z.mod_unique with 0; lia.
Qed.

Lemma c_inv_spec N a : 1 <= N <= 65535 -> 0 <= a < N -> c_inv N a = (- a) mod N.
Proof.
  intros HN Ha. unfold c_inv.
  destruct (Z.eqb_spec a 0) as [->|E]; cbn [negb b2z].
  - reflexivity.
  - rewrite u16_id by lia. apply Z.mod_unique with (-1); lia.
Qed.

Lemma c_op_closed N a b : 1 <= N <= 32768 -> 0 <= a < N -> 0 <= b < N -> 0 <= c_op N a b < N.
Proof. intros. rewrite c_op_spec by lia. apply Z.mod_pos_bound; lia. Qed.

Lemma c_inv_closed N a : 1 <= N <= 65535 -> 0 <= a < N -> 0 <= c_inv N a < N.
Proof. intros. rewrite c_inv_spec by lia. apply Z.mod_pos_bound; lia. Qed.

Lemma c_op_assoc N a b c : 1 <= N <= 32768 -> 0 <= a < N -> 0 <= b < N -> 0 <= c < N ->
  c_op N a (c_op N b c) = c_op N (c_op N a b) c.
Proof.
  intros HN Ha Hb Hc.
  pose proof (c_op_closed _ _ _ HN Hb Hc). pose proof (c_op_closed _ _ _ HN Ha Hb).
  rewrite (c_op_spec _ _ _ HN Ha), (c_op_spec _ _ _ HN H0 Hc) by assumption.
  rewrite (c_op_spec _ _ _ HN Hb Hc), (c_op_spec _ _ _ HN Ha Hb).
  rewrite Zplus_mod_idemp_r, Zplus_mod_idemp_l. f_equal; lia.
Qed.

Lemma c_op_comm N a b : c_op N a b = c_op N b a.
Proof. unfold c_op, c_op_cond; cbn [b2z]. rewrite !Z.mul_1_l, Z.add_comm. reflexivity. Qed.

Lemma c_op_e N a : 1 <= N <= 65535 -> 0 <= a < N -> c_op N c_neutral a = a.
Proof.
  intros. unfold c_op, c_op_cond, c_neutral. cbn [b2z].
  rewrite (u16_id (0 + 1 * a)) by lia.
  destruct (N <=? 0 + 1 * a) eqn:E; cbn [b2z]; [lia|].
  rewrite u16_id; lia.
Qed.

Lemma c_op_inv N a : 1 <= N <= 65535 -> 0 <= a < N -> c_op N (c_inv N a) a = c_neutral.
Proof.
  intros HN Ha. unfold c_op, c_op_cond, c_inv, c_neutral. cbn [b2z].
  destruct (Z.eqb_spec a 0) as [->|E]; cbn [negb b2z].
  - change (u16 (0 * (N - 0))) with 0. change (u16 (0 + 1 * 0)) with 0.
    destruct (N <=? 0) eqn:E; [lia|]. reflexivity.
  - rewrite (u16_id (1 * (N - a))) by lia.
    replace (1 * (N - a) + 1 * a) with N by lia.
    rewrite (u16_id N) by lia. rewrite Z.leb_refl. cbn [b2z].
    replace (N - 1 * N) with 0 by lia. reflexivity.
Qed.

(** For every larger modulus the product of two legal values goes wrong. *)
Lemma c_op_large_bad N : 32769 <= N <= 65535 ->
  exists a b, 0 <= a < N /\ 0 <= b < N /\ c_op N a b <> (a + b) mod N.
Proof.
  intros HN. exists (N - 1), (N - 1). split; [lia|split;[lia|]].
  unfold c_op, c_op_cond. cbn [b2z].
  assert (E1 : u16 (N - 1 + 1 * (N - 1)) = 2 * N - 2 - 65536).
  { unfold u16. symmetry. apply Z.mod_unique with 1; lia. }
  rewrite E1.
  assert (E2 : (N - 1 + (N - 1)) mod N = N - 2).
  { symmetry. apply Z.mod_unique with 1; lia. }
  rewrite E2.
  destruct (N <=? 2 * N - 2 - 65536) eqn:E; cbn [b2z]; [lia|].
  rewrite u16_id; lia.
Qed.

Lemma c_op_large_not_assoc N : 32769 <= N <= 65535 ->
  exists a b c, 0 <= a < N /\ 0 <= b < N /\ 0 <= c < N /\
    c_op N a (c_op N b c) <> c_op N (c_op N a b) c.
Proof.
  (* a = N-1, b = N-1, c = 1: b*c = 0, so a*(b*c) = N-1; (a*b)*c = 2N-2-65536+1. *)
  intros HN. exists (N - 1), (N - 1), 1. split; [lia|split;[lia|split;[lia|]]].
  assert (E1 : c_op N (N - 1) (N - 1) = 2 * N - 2 - 65536).
  { unfold c_op, c_op_cond. cbn [b2z].
    assert (E1 : u16 (N - 1 + 1 * (N - 1)) = 2 * N - 2 - 65536).
    { unfold u16. symmetry. apply Z.mod_unique with 1; lia. }
    rewrite E1. destruct (N <=? 2 * N - 2 - 65536) eqn:E; cbn [b2z]; [lia|].
    rewrite u16_id; lia. }
  assert (E2 : c_op N (N - 1) 1 = 0).
  { unfold c_op, c_op_cond. cbn [b2z]. replace (N - 1 + 1 * 1) with N by lia.
    rewrite (u16_id N) by lia. rewrite Z.leb_refl; cbn [b2z].
    replace (N - 1 * N) with 0 by lia. reflexivity. }
  rewrite E1, E2. rewrite c_op_comm, c_op_e by lia.
  unfold c_op, c_op_cond. cbn [b2z].
  rewrite (u16_id (2 * N - 2 - 65536 + 1 * 1)) by lia.
  destruct (N <=? 2 * N - 2 - 65536 + 1 * 1) eqn:E; cbn [b2z]; [lia|].
  rewrite u16_id; lia.
Qed.

(** Constructor. *)
Lemma rem_neg v N : 0 < N -> v < 0 -> Z.rem v N = - ((- v) mod N).
Proof.
  intros HN Hv. rewrite <- (Z.opp_involutive v) at 1.
  rewrite Z.rem_opp_l by lia. rewrite Z.rem_mod_nonneg by lia. reflexivity.
Qed.

Lemma c_of_int_spec N v : 1 <= N <= 65535 -> -32768 <= v <= 32767 ->
  (forall k, 2 <= k -> v <> - (k * N)) -> c_of_int N v = v mod N.
Proof.
  intros HN Hv Hk. unfold c_of_int.
  destruct (Z.ltb_spec v 0) as [Hneg|Hpos]; cbn [b2z].
  - rewrite rem_neg by lia.
    destruct (Z.eqb_spec v (- N)) as [->|Hne]; cbn [negb b2z].
    + rewrite Z.opp_involutive, Z_mod_same_full.
      replace (1 * 1) with 1 by reflexivity.
      cbn. rewrite <- (Z.mod_unique (-N) N (-1) 0); lia.
    + assert (Hm : (- v) mod N <> 0).
      { intros Hm. pose proof (Z.div_mod (-v) N ltac:(lia)) as Hd. rewrite Hm in Hd.
        destruct (Z.eq_dec ((-v)/N) 1) as [E|E]; [rewrite E in Hd; lia|].
        apply (Hk ((-v)/N)); [|lia].
        assert (0 < (-v)/N) by nia. lia. }
      pose proof (Z.mod_pos_bound (-v) N ltac:(lia)).
      rewrite u16_id by lia.
      pose proof (Z.div_mod (-v) N ltac:(lia)) as Hd.
      apply Z.mod_unique with (- ((-v)/N) - 1); nia.
  - rewrite Z.rem_mod_nonneg by lia.
    rewrite Z.mul_0_r, Z.mul_0_l, Z.add_0_l.
    apply u16_id. pose proof (Z.mod_pos_bound v N ltac:(lia)). lia.
Qed.

Lemma c_of_int_bad N k : 1 <= N <= 65535 -> 2 <= k -> k * N <= 32768 ->
  c_of_int N (- (k * N)) = N.
Proof.
  intros HN Hk Hb. unfold c_of_int.
  destruct (Z.eqb_spec (- (k*N)) (-N)) as [E|E]; [nia|]. cbn [negb b2z].
  destruct (Z.ltb_spec (-(k*N)) 0) as [E'|E']; [|nia]. cbn [b2z].
  rewrite rem_neg by nia. rewrite Z.opp_involutive, Z.mod_mul by lia.
  rewrite u16_id; lia.
Qed.

(** ** Z *)
Lemma i16_range z : -32768 <= i16 z <= 32767.
Proof. unfold i16. pose proof (Z.mod_pos_bound (z+32768) 65536 ltac:(lia)). lia. Qed.

Lemma i16_congr z w : (z - w) mod 65536 = 0 -> i16 z = i16 w.
Proof. unfold i16; intros; f_equal. lia. Qed.

Lemma i16_mod z : (i16 z - z) mod 65536 = 0.
Proof. unfold i16. lia. Qed.

Lemma z_op_assoc a b c : z_op a (z_op b c) = z_op (z_op a b) c.
Proof.
  unfold z_op, z_op_cond; cbn [b2z]. apply i16_congr.
  pose proof (i16_mod (b + 1 * c)). pose proof (i16_mod (a + 1*b)). lia.
Qed.
Lemma z_op_comm a b : z_op a b = z_op b a.
Proof. unfold z_op, z_op_cond; cbn [b2z]. f_equal; lia. Qed.
Lemma z_op_e a : -32768 <= a <= 32767 -> z_op z_neutral a = a.
Proof. unfold z_op, z_op_cond, z_neutral; cbn [b2z]; intros. rewrite i16_id; lia. Qed.
Lemma z_op_inv a : z_op (z_inv a) a = z_neutral.
Proof.
  unfold z_op, z_op_cond, z_inv, z_neutral; cbn [b2z].
  rewrite <- (i16_id 0) by lia. apply i16_congr. pose proof (i16_mod (-a)). lia.
Qed.
Lemma z_op_exact a b : -32768 <= a + b <= 32767 -> z_op a b = a + b.
Proof. unfold z_op, z_op_cond; cbn [b2z]; intros. rewrite Z.mul_1_l. apply i16_id; lia. Qed.

(** ** Carriers and group instances *)
Lemma bool_UIP (b c : bool) (p q : b = c) : p = q.
Proof. apply UIP_dec, bool_dec. Qed.

Lemma sig_eq (A : Type) (f : A -> bool) (x y : { a : A | f a = true }) :
  proj1_sig x = proj1_sig y -> x = y.
Proof.
  destruct x as [x p], y as [y q]; cbn. intros ->. f_equal. apply bool_UIP.
Qed.

Lemma dist2_spec a b : 0 <= dist2 a b /\ (dist2 a b = 0 <-> a = b).
Proof.
  unfold dist2. split; [apply Z.square_nonneg|]. split; [|intros ->; lia].
  intros H. apply Z.mul_eq_0 in H. lia.
Qed.

Section Cyc.
  Variable N : Z.
  Hypothesis HN : 1 <= N <= 32768.
  Lemma cl_op (x y : cyc N) : c_legal N (c_op N (proj1_sig x) (proj1_sig y)) = true.
  Proof.
    destruct x as [x p], y as [y q]; cbn. apply legal_b in p, q. apply legal_b.
    apply c_op_closed; lia.
  Qed.
  Lemma cl_inv (x : cyc N) : c_legal N (c_inv N (proj1_sig x)) = true.
  Proof.
    destruct x as [x p]; cbn. apply legal_b in p. apply legal_b. apply c_inv_closed; lia.
  Qed.
  Lemma cl_e : c_legal N c_neutral = true.
  Proof. apply legal_b. unfold c_neutral; lia. Qed.

  (** C<N> on its legal values as a group record. *)
  Definition cyc_group : abgroup.
  Proof.
    refine {| qT := cyc N;
              qop := fun x y => exist _ _ (cl_op x y);
              qinv := fun x => exist _ _ (cl_inv x);
              qe := exist _ _ cl_e;
              qeqb := fun x y => c_eqb (proj1_sig x) (proj1_sig y);
              qltb := fun x y => c_ltb (proj1_sig x) (proj1_sig y);
              qdist2 := fun x y => dist2 (proj1_sig x) (proj1_sig y) |}.
    - intros [a p] [b q] [c r]; apply sig_eq; cbn. apply legal_b in p, q, r. apply c_op_assoc; lia.
    - intros [a p] [b q]; apply sig_eq; cbn. apply c_op_comm.
    - intros [a p]; apply sig_eq; cbn. apply legal_b in p. apply c_op_e; lia.
    - intros [a p]; apply sig_eq; cbn. apply legal_b in p. apply c_op_inv; lia.
    - intros a b. unfold c_eqb. rewrite Z.eqb_eq. split; [apply sig_eq|congruence].
    - intros a. apply Z.ltb_irrefl.
    - intros a b c. unfold c_ltb. lia.
    - intros a b. unfold c_ltb.
      destruct (Z.lt_trichotomy (proj1_sig a) (proj1_sig b)) as [H|[H|H]]; [left; lia| |right; right; lia].
      right; left; apply sig_eq; assumption.
    - intros a b. pose proof (dist2_spec (proj1_sig a) (proj1_sig b)) as [H1 H2]. split; [exact H1|].
      rewrite H2. split; [apply sig_eq|congruence].
  Defined.
End Cyc.

Lemma zl_range a : z_legal a = true <-> -32768 <= a <= 32767.
Proof. unfold z_legal; lia. Qed.
Lemma zl_op (x y : int16) : z_legal (z_op (proj1_sig x) (proj1_sig y)) = true.
Proof. apply zl_range. apply i16_range. Qed.
Lemma zl_inv (x : int16) : z_legal (z_inv (proj1_sig x)) = true.
Proof. apply zl_range. apply i16_range. Qed.

(** Z on its machine values as a group record. *)
Definition z_group : abgroup.
Proof.
  refine {| qT := int16;
            qop := fun x y => exist _ _ (zl_op x y);
            qinv := fun x => exist _ _ (zl_inv x);
            qe := exist _ z_neutral eq_refl;
            qeqb := fun x y => proj1_sig x =? proj1_sig y;
            qltb := fun x y => proj1_sig x <? proj1_sig y;
            qdist2 := fun x y => dist2 (proj1_sig x) (proj1_sig y) |}.
  - intros a b c; apply sig_eq; cbn. apply z_op_assoc.
  - intros a b; apply sig_eq; cbn. apply z_op_comm.
  - intros [a p]; apply sig_eq; cbn. apply zl_range in p. apply z_op_e; lia.
  - intros a; apply sig_eq; cbn. apply z_op_inv.
  - intros a b. rewrite Z.eqb_eq. split; [apply sig_eq|congruence].
  - intros a. apply Z.ltb_irrefl.
  - intros a b c. lia.
  - intros a b.
    destruct (Z.lt_trichotomy (proj1_sig a) (proj1_sig b)) as [H|[H|H]]; [left; lia| |right; right; lia].
    right; left; apply sig_eq; assumption.
  - intros a b. pose proof (dist2_spec (proj1_sig a) (proj1_sig b)) as [H1 H2]. split; [exact H1|].
    rewrite H2. split; [apply sig_eq|congruence].
Defined.

(** ** Composite quantities: quantity_impl.h 110-420.  A template pack is a list of factors; the
    std::tuple of values is a nested pair; op/inverse/== are componentwise ([for_each2]), < is
    std::tuple's lexicographic order, distance2 is the sum of the component distances. *)
Definition unit_group : abgroup.
Proof.
  refine {| qT := unit; qop := fun _ _ => tt; qinv := fun _ => tt; qe := tt;
            qeqb := fun _ _ => true; qltb := fun _ _ => false; qdist2 := fun _ _ => 0 |};
  try (intros; repeat match goal with x : unit |- _ => destruct x end; cbn; auto; fail).
  - intros [] []; tauto.
  - intros [] []; split; [lia|tauto].
Defined.

Definition prod_group (G H : abgroup) : abgroup.
Proof.
  refine {| qT := qT G * qT H;
            qop := fun x y => (qop G (fst x) (fst y), qop H (snd x) (snd y));
            qinv := fun x => (qinv G (fst x), qinv H (snd x));
            qe := (qe G, qe H);
            qeqb := fun x y => qeqb G (fst x) (fst y) && qeqb H (snd x) (snd y);
            qltb := fun x y => qltb G (fst x) (fst y)
                               || (negb (qltb G (fst y) (fst x)) && qltb H (snd x) (snd y));
            qdist2 := fun x y => qdist2 G (fst x) (fst y) + qdist2 H (snd x) (snd y) |}.
  - intros [] [] []; cbn. rewrite !qop_assoc. reflexivity.
  - intros [] []; cbn. rewrite (qop_comm G), (qop_comm H). reflexivity.
  - intros []; cbn. rewrite !qop_e_l. reflexivity.
  - intros []; cbn. rewrite !qop_inv_l. reflexivity.
  - intros [] []; cbn. rewrite andb_true_iff, !qeqb_spec. split; [intros []; congruence|intros E; injection E; auto].
  - intros []; cbn. rewrite !qltb_irrefl. reflexivity.
  - intros [a a'] [b b'] [c c']; cbn. rewrite !orb_true_iff, !andb_true_iff, !negb_true_iff.
    intros [H1|[H1 H1']] [H2|[H2 H2']].
    + left. eapply qltb_trans; eassumption.
    + destruct (qltb_total G b c) as [H3|[->|H3]].
      * left. eapply qltb_trans; eassumption.
      * left; assumption.
      * congruence.
    + destruct (qltb_total G a b) as [H3|[->|H3]].
      * left. eapply qltb_trans; eassumption.
      * left; assumption.
      * congruence.
    + destruct (qltb_total G a b) as [H3|[->|H3]]; [|right; split; [assumption|]|congruence].
      * destruct (qltb_total G b c) as [H4|[->|H4]]; [left; eapply qltb_trans; eassumption|left; assumption|congruence].
      * eapply qltb_trans; eassumption.
  - intros [a a'] [b b']; cbn. rewrite !orb_true_iff, !andb_true_iff, !negb_true_iff.
    destruct (qltb_total G a b) as [H1|[->|H1]]; [left; left; assumption| |right; right; left; assumption].
    destruct (qltb_total H a' b') as [H1|[->|H1]].
    + left; right; split; [apply qltb_irrefl|assumption].
    + right; left; reflexivity.
    + right; right; right; split; [apply qltb_irrefl|assumption].
  - intros [a a'] [b b']; cbn.
    destruct (qdist2_spec G a b) as [P1 P2], (qdist2_spec H a' b') as [P3 P4].
    split; [lia|]. split.
    + intros E. assert (qdist2 G a b = 0) by lia. assert (qdist2 H a' b' = 0) by lia.
      apply P2 in H0. apply P4 in H1. congruence.
    + intros E; injection E; intros -> ->.
      assert (qdist2 G b b = 0) by (apply P2; reflexivity).
      assert (qdist2 H b' b' = 0) by (apply P4; reflexivity). lia.
Defined.

Definition composite (gs : list abgroup) : abgroup := fold_right prod_group unit_group gs.

(** ** Generic consequences used by the tensor files. *)
Section Gen.
  Variable G : abgroup.
  Implicit Types a b c : G.
  Lemma qop_e_r a : qop G a (qe G) = a.
  Proof. rewrite qop_comm. apply qop_e_l. Qed.
  Lemma qop_inv_r a : qop G a (qinv G a) = qe G.
  Proof. rewrite qop_comm. apply qop_inv_l. Qed.
  Lemma qop_cancel_l a b c : qop G a b = qop G a c -> b = c.
  Proof.
    intros H. rewrite <- (qop_e_l G b), <- (qop_e_l G c), <- (qop_inv_l G a).
    rewrite <- !qop_assoc, H. reflexivity.
  Qed.
  Lemma qop_cancel_r a b c : qop G b a = qop G c a -> b = c.
  Proof. rewrite !(qop_comm G _ a). apply qop_cancel_l. Qed.
  Lemma qinv_op a b : qinv G (qop G a b) = qop G (qinv G a) (qinv G b).
  Proof.
    apply qop_cancel_r with (qop G a b). rewrite qop_inv_l.
    rewrite (qop_comm G a b), qop_assoc, <- (qop_assoc G (qinv G a)), qop_inv_l, qop_e_r, qop_inv_l.
    reflexivity.
  Qed.
  Lemma qinv_inv a : qinv G (qinv G a) = a.
  Proof. apply qop_cancel_r with (qinv G a). rewrite qop_inv_l, qop_inv_r. reflexivity. Qed.
  Lemma qinv_e : qinv G (qe G) = qe G.
  Proof. apply qop_cancel_r with (qe G). rewrite qop_inv_l, qop_e_l. reflexivity. Qed.
  Lemma qinv_unique a b : qop G a b = qe G -> a = qinv G b.
  Proof. intros H. apply qop_cancel_r with b. rewrite H, qop_inv_l. reflexivity. Qed.
  Lemma qeqb_refl a : qeqb G a a = true.
  Proof. apply qeqb_spec. reflexivity. Qed.
  Lemma qeqb_false a b : qeqb G a b = false <-> a <> b.
  Proof. rewrite <- not_true_iff_false, qeqb_spec. reflexivity. Qed.

  (** Product of a list of quantities. *)
  Definition qprod (l : list G) : G := fold_right (qop G) (qe G) l.
  Lemma qprod_app l m : qprod (l ++ m) = qop G (qprod l) (qprod m).
  Proof.
    induction l as [|x l IH]; cbn; [rewrite qop_e_l; reflexivity|].
    change (fold_right (qop G) (qe G) (l ++ m)) with (qprod (l ++ m)).
    rewrite IH, qop_assoc. reflexivity.
  Qed.
  Lemma qprod_inv l : qprod (map (qinv G) l) = qinv G (qprod l).
  Proof.
    induction l as [|x l IH]; cbn; [rewrite qinv_e; reflexivity|].
    change (fold_right (qop G) (qe G) (map (qinv G) l)) with (qprod (map (qinv G) l)).
    rewrite IH, qinv_op. reflexivity.
  Qed.
  Lemma qop_swap a b c d : qop G (qop G a b) (qop G c d) = qop G (qop G a c) (qop G b d).
  Proof.
    rewrite <- !qop_assoc. f_equal. rewrite !qop_assoc. f_equal. apply qop_comm.
  Qed.
  Lemma qprod_map2 l : forall m, length l = length m ->
    qprod (map (fun p => qop G (fst p) (snd p)) (combine l m)) = qop G (qprod l) (qprod m).
  Proof.
    induction l as [|x l IH]; intros [|y m] H; try discriminate; cbn.
    - rewrite qop_e_l; reflexivity.
    - change (fold_right (qop G) (qe G) (map (fun p => qop G (fst p) (snd p)) (combine l m)))
        with (qprod (map (fun p => qop G (fst p) (snd p)) (combine l m))).
      rewrite IH by (cbn in H; lia). apply qop_swap.
  Qed.
End Gen.

(** ** Lemmas closing the property theorems. *)
Lemma c_group : forall N, 1 <= N <= 32768 ->
  ((0 <= c_neutral < N) /\
   (forall a b, 0 <= a < N -> 0 <= b < N -> 0 <= c_op N a b < N) /\
   (forall a, 0 <= a < N -> 0 <= c_inv N a < N) /\
   (forall a b c, 0 <= a < N -> 0 <= b < N -> 0 <= c < N -> c_op N a (c_op N b c) = c_op N (c_op N a b) c) /\
   (forall a b, 0 <= a < N -> 0 <= b < N -> c_op N a b = c_op N b a) /\
   (forall a, 0 <= a < N -> c_op N c_neutral a = a) /\
   (forall a, 0 <= a < N -> c_op N a (c_inv N a) = c_neutral)) /\
  (forall a b, 0 <= a < N -> 0 <= b < N -> c_op N a b = (a + b) mod N) /\
  (forall a, 0 <= a < N -> c_inv N a = (- a) mod N).
Proof.
  intros N HN. repeat split; intros.
  - unfold c_neutral; lia.
  - unfold c_neutral; lia.
  - apply c_op_closed; lia.
  - apply c_op_closed; lia.
  - apply c_inv_closed; lia.
  - apply c_inv_closed; lia.
  - apply c_op_assoc; lia.
  - apply c_op_comm.
  - apply c_op_e; lia.
  - rewrite c_op_comm. apply c_op_inv; lia.
  - apply c_op_spec; lia.
  - apply c_inv_spec; lia.
Qed.

Lemma c_group_large : forall N, 32769 <= N <= 65535 ->
  ~ ((0 <= c_neutral < N) /\
   (forall a b, 0 <= a < N -> 0 <= b < N -> 0 <= c_op N a b < N) /\
   (forall a, 0 <= a < N -> 0 <= c_inv N a < N) /\
   (forall a b c, 0 <= a < N -> 0 <= b < N -> 0 <= c < N -> c_op N a (c_op N b c) = c_op N (c_op N a b) c) /\
   (forall a b, 0 <= a < N -> 0 <= b < N -> c_op N a b = c_op N b a) /\
   (forall a, 0 <= a < N -> c_op N c_neutral a = a) /\
   (forall a, 0 <= a < N -> c_op N a (c_inv N a) = c_neutral)).
Proof.
  intros N HN (_ & _ & _ & H & _).
  destruct (c_op_large_not_assoc N HN) as (a & b & c & Ha & Hb & Hc & Hbad).
  apply Hbad, H; assumption.
Qed.

Lemma c_ctor : forall N v, 1 <= N <= 65535 -> -32768 <= v <= 32767 ->
  ~ (exists k, 2 <= k /\ v = - (k * N)) -> c_of_int N v = v mod N.
Proof. intros N v HN Hv Hk. apply c_of_int_spec; eauto. Qed.

Lemma c_ctor_bad : forall N k, 1 <= N <= 65535 -> 2 <= k -> k * N <= 32768 ->
  c_of_int N (- (k * N)) = N /\ c_of_int N (- (k * N)) <> (- (k * N)) mod N.
Proof.
  intros N k HN Hk Hb. rewrite c_of_int_bad by assumption. split; [reflexivity|].
  pose proof (Z.mod_pos_bound (-(k*N)) N ltac:(lia)). lia.
Qed.

Lemma z_inv_exact a : -32767 <= a <= 32767 -> z_inv a = - a.
Proof. intros; apply i16_id; lia. Qed.

Lemma z_quantity :
  ((-32768 <= z_neutral <= 32767) /\
   (forall a b, -32768 <= a <= 32767 -> -32768 <= b <= 32767 -> -32768 <= z_op a b <= 32767) /\
   (forall a, -32768 <= a <= 32767 -> -32768 <= z_inv a <= 32767) /\
   (forall a b c, -32768 <= a <= 32767 -> -32768 <= b <= 32767 -> -32768 <= c <= 32767 ->
      z_op a (z_op b c) = z_op (z_op a b) c) /\
   (forall a b, -32768 <= a <= 32767 -> -32768 <= b <= 32767 -> z_op a b = z_op b a) /\
   (forall a, -32768 <= a <= 32767 -> z_op z_neutral a = a) /\
   (forall a, -32768 <= a <= 32767 -> z_op a (z_inv a) = z_neutral)) /\
  (forall l acc, running_sums_within (-32767) 32767 acc l ->
     fold_left z_op l acc = acc + fold_right Z.add 0 l) /\
  (forall a, -32767 <= a <= 32767 -> z_inv a = - a).
Proof.
  repeat split; intros; try apply i16_range.
  - unfold z_neutral; lia.
  - unfold z_neutral; lia.
  - apply z_op_assoc.
  - apply z_op_comm.
  - apply z_op_e; assumption.
  - rewrite z_op_comm; apply z_op_inv.
  - revert acc H. induction l as [|x l IH]; cbn [fold_left fold_right running_sums_within]; intros acc H; [lia|].
    destruct H as [H1 H2]. rewrite z_op_exact by lia. rewrite (IH _ H2). lia.
  - apply z_inv_exact; lia.
Qed.

Lemma composite_ok : forall gs : list abgroup,
  let Q := composite gs in
  (True /\ (forall a b : Q, True -> True -> True) /\ (forall a : Q, True -> True) /\
   (forall a b c : Q, True -> True -> True -> qop Q a (qop Q b c) = qop Q (qop Q a b) c) /\
   (forall a b : Q, True -> True -> qop Q a b = qop Q b a) /\
   (forall a : Q, True -> qop Q (qe Q) a = a) /\
   (forall a : Q, True -> qop Q a (qinv Q a) = qe Q)) /\
  (forall a b, qeqb Q a b = true <-> a = b) /\
  ((forall a, qltb Q a a = false) /\
   (forall a b c, qltb Q a b = true -> qltb Q b c = true -> qltb Q a c = true) /\
   (forall a b, qltb Q a b = true \/ a = b \/ qltb Q b a = true)) /\
  (forall a b, 0 <= qdist2 Q a b /\ (qdist2 Q a b = 0 <-> a = b)).
Proof.
  intros gs Q. split; [|split; [apply qeqb_spec|split; [|apply qdist2_spec]]].
  - repeat split; intros.
    + apply qop_assoc.
    + apply qop_comm.
    + apply qop_e_l.
    + apply qop_inv_r.
  - split; [apply qltb_irrefl|split; [apply qltb_trans|apply qltb_total]].
Qed.

Lemma composite_cons : forall g gs (a b : qT (composite (g :: gs))),
  qop (composite (g :: gs)) a b = (qop g (fst a) (fst b), qop (composite gs) (snd a) (snd b)) /\
  qinv (composite (g :: gs)) a = (qinv g (fst a), qinv (composite gs) (snd a)) /\
  (qltb (composite (g :: gs)) a b = true <->
     qltb g (fst a) (fst b) = true \/ (fst a = fst b /\ qltb (composite gs) (snd a) (snd b) = true)) /\
  qdist2 (composite (g :: gs)) a b = qdist2 g (fst a) (fst b) + qdist2 (composite gs) (snd a) (snd b).
Proof.
  intros g gs a b. repeat split; try reflexivity.
  - cbn. rewrite orb_true_iff, andb_true_iff, negb_true_iff. intros [H|[H1 H2]]; [left; exact H|].
    destruct (qltb_total g (fst a) (fst b)) as [H3|[H3|H3]]; [left; exact H3|right; auto|exfalso; exact (diff_false_true (eq_trans (eq_sym H1) H3))].
  - cbn. rewrite orb_true_iff, andb_true_iff, negb_true_iff. intros [H|[H1 H2]]; [left; exact H|].
    right. split; [|exact H2]. destruct a as [a a'], b as [b b']; cbn in H1 |- *. subst. apply qltb_irrefl.
Qed.

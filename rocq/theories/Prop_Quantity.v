(** Property theorems C01-C04: conserved quantities. *)
From Verif Require Import Base Quantity SpecQuantity QuantityProofs.
Local Open Scope Z_scope.

(** C01.  Full claim: for every N in 1..65535.  It holds exactly for N <= 32768: [_partial] covers
    those (and says the product is addition mod N), [_refuted] shows it fails for every larger N. *)
Theorem C01_cyclic_group_partial : forall N, 1 <= N <= 32768 ->
  abelian_group_on (fun a => 0 <= a < N) (c_op N) (c_inv N) c_neutral /\
  (forall a b, 0 <= a < N -> 0 <= b < N -> c_op N a b = (a + b) mod N) /\
  (forall a, 0 <= a < N -> c_inv N a = (- a) mod N).
Proof. exact c_group. Qed.
Print Assumptions C01_cyclic_group_partial.
Example C01_ex : c_op 6 4 5 = 3 /\ c_inv 6 4 = 2 /\ c_op 32768 32767 32767 = 32766.
Proof. vm_compute; auto. Qed.

Theorem C01_cyclic_group_refuted : forall N, 32769 <= N <= 65535 ->
  ~ abelian_group_on (fun a => 0 <= a < N) (c_op N) (c_inv N) c_neutral.
Proof. exact c_group_large. Qed.
Print Assumptions C01_cyclic_group_refuted.

(** C02.  Full claim: [c_of_int N v = v mod N] for every int16 v.  It holds except exactly at
    v = -kN with k >= 2, where the constructor stores the illegal value N. *)
Theorem C02_constructor_residue_partial : forall N v, 1 <= N <= 65535 -> -32768 <= v <= 32767 ->
  ~ (exists k, 2 <= k /\ v = - (k * N)) -> c_of_int N v = v mod N.
Proof. exact c_ctor. Qed.
Print Assumptions C02_constructor_residue_partial.
Example C02_ex : c_of_int 5 (-7) = 3 /\ c_of_int 5 (-5) = 0 /\ c_of_int 5 13 = 3.
Proof. vm_compute; auto. Qed.

Theorem C02_constructor_residue_refuted : forall N k, 1 <= N <= 65535 -> 2 <= k -> k * N <= 32768 ->
  c_of_int N (- (k * N)) = N /\ c_of_int N (- (k * N)) <> (- (k * N)) mod N.
Proof. exact c_ctor_bad. Qed.
Print Assumptions C02_constructor_residue_refuted.
Example C02_refuted_ex : c_of_int 2 (-4) = 2 /\ c_eqb (c_of_int 2 (-4)) c_neutral = false.
Proof. vm_compute; auto. Qed.

(** C03. *)
Theorem C03_integer_quantity :
  abelian_group_on (fun a => -32768 <= a <= 32767) z_op z_inv z_neutral /\
  (forall l acc, running_sums_within (-32767) 32767 acc l ->
     fold_left z_op l acc = acc + fold_right Z.add 0 l) /\
  (forall a, -32767 <= a <= 32767 -> z_inv a = - a).
Proof. exact z_quantity. Qed.
Print Assumptions C03_integer_quantity.
Example C03_ex : running_sums_within (-32767) 32767 0 [30000; 2767; -5; -32000]
  /\ fold_left z_op [30000; 2767; -5; -32000] 0 = 762.
Proof. cbn; lia. Qed.

(** C04: any list of group factors. *)
Theorem C04_composite : forall gs : list abgroup,
  let Q := composite gs in
  abelian_group_on (fun _ => True) (qop Q) (qinv Q) (qe Q) /\
  (forall a b, qeqb Q a b = true <-> a = b) /\
  strict_total_order (qltb Q) /\
  (forall a b, 0 <= qdist2 Q a b /\ (qdist2 Q a b = 0 <-> a = b)).
Proof. exact composite_ok. Qed.
Print Assumptions C04_composite.

(** The operations really are componentwise / lexicographic / summed. *)
Theorem C04_composite_cons : forall g gs (a b : qT (composite (g :: gs))),
  qop (composite (g :: gs)) a b = (qop g (fst a) (fst b), qop (composite gs) (snd a) (snd b)) /\
  qinv (composite (g :: gs)) a = (qinv g (fst a), qinv (composite gs) (snd a)) /\
  (qltb (composite (g :: gs)) a b = true <->
     qltb g (fst a) (fst b) = true \/ (fst a = fst b /\ qltb (composite gs) (snd a) (snd b) = true)) /\
  qdist2 (composite (g :: gs)) a b = qdist2 g (fst a) (fst b) + qdist2 (composite gs) (snd a) (snd b).
Proof. exact composite_cons. Qed.
Print Assumptions C04_composite_cons.

(** C<2> x Z, a concrete composite: (1,5)*(1,-7) = (0,-2). *)
Lemma two_ok : 1 <= 2 <= 32768. Proof. lia. Qed.
Example C04_ex :
  let Q := composite [cyc_group 2 two_ok; z_group] in
  exists a b : Q,
    qeqb Q (qop Q a b) (qe Q) = false /\ proj1_sig (fst (qop Q a b)) = 0
    /\ proj1_sig (fst (snd (qop Q a b))) = -2 /\ qltb Q (qop Q a b) a = true /\ qdist2 Q a b = 144.
Proof.
  set (c1 := exist _ 1 eq_refl : cyc 2). set (z5 := exist _ 5 eq_refl : int16).
  set (z7 := exist _ (-7) eq_refl : int16).
  exists (c1, (z5, tt)), (c1, (z7, tt)).
  vm_compute; auto.
Qed.

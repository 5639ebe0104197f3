(** Property theorems about Hamiltonians with conserved quantities: Heisenberg (C50) and Hubbard (C69). The chains are those before
    the final compression [coalesce] (see Prop_ModelsCoal.v for the result); at least two sites. *)
From Verif Require Import Base Quantity QuantityProofs Ring SpecIndex Dense BTensor SpecBTensor SpecChain SpecSector BTensorEx
  Models SpecModels ModelsBlock SpecModelsBlock ModelsBlockProofs ModelsBlockThms RingQc.

(** One site of [to_bMPO]: a tensor whose every non-zero element is large enough and carries the quantity of the rule is
    represented exactly; a tensor with a noticeable element of another quantity is refused. *)
Theorem C50_site_exact : forall (G : abgroup) (R : ring) signif near (S : btensor G R) V, (forall x, near x x = true) ->
  meta_ok S -> (forall n, In n (b_sbd S) -> 0 < n) -> dsh V = map sum_list (legs S) ->
  (forall i, in_range (dsh V) i = true -> dv V i = rz \/ visible signif (dv V i) /\ exists cs, carried S i cs /\ qprod G cs = b_rule S) ->
  exists T, bsite signif near S V = Ok T /\ same_meta S T /\ valid T /\ dense_form T V.
Proof. intros G R signif near S V H. exact (@site_ok G R signif near H S V). Qed.
Print Assumptions C50_site_exact.
Theorem C50_site_refused : forall (G : abgroup) (R : ring) signif near (S : btensor G R) V i cs,
  meta_ok S -> (forall n, In n (b_sbd S) -> 0 < n) -> dsh V = map sum_list (legs S) ->
  in_range (dsh V) i = true -> carried S i cs -> qprod G cs <> b_rule S -> near rz (dv V i) = false -> bsite signif near S V = Throw InvalidArgument.
Proof. exact (@site_bad). Qed.
Print Assumptions C50_site_refused.

(** C50. The quantities p0 and p1 of the two states must satisfy p1 = p0 p0 and p0 = p1 p1: then the block tensors denote the
    tensors of [Heisenberg] (see C49 for the operator they make up), up to the compression. *)
Theorem C50_accepted_partial : forall (G : abgroup) (R : ring) signif near quarter (J : R) n (P : btensor G R) p0 p1, (forall x, near x x = true) ->
  2 <= n -> phys_dim 2 P -> phys_carries P 0 p0 -> phys_carries P 1 p1 -> visible signif ro -> visible signif (ropp ro) ->
  (forall x, In x [rmul (radd ro ro) (quarter (ropp J)); quarter (ropp J); ropp (quarter (ropp J))] -> x = rz \/ visible signif x) ->
  p1 = qop G p0 p0 -> p0 = qop G p1 p1 ->
  exists Ts Ws, b_Heisenberg signif near quarter J n P = Ok Ts /\ Heisenberg quarter J n = Ok Ws /\ block_mpo P Ts Ws ([1], [qe G]) ([1], [qe G]) /\
    inner_bonds Ts (bdual G (repeat 1 5, [qe G; p0; p1; qe G; qe G])).
Proof. intros G R signif near quarter J n P p0 p1 H. exact (@heis_ok G R signif near H quarter J n P p0 p1). Qed.
Print Assumptions C50_accepted_partial.
Theorem C50_rejected : forall (G : abgroup) (R : ring) signif near quarter (J : R) n (P : btensor G R) p0 p1, (forall x, near x x = true) -> near rz ro = false ->
  2 <= n -> phys_dim 2 P -> phys_carries P 0 p0 -> phys_carries P 1 p1 -> ~ (p1 = qop G p0 p0 /\ p0 = qop G p1 p1) ->
  b_Heisenberg signif near quarter J n P = Throw InvalidArgument.
Proof. intros G R signif near quarter J n P p0 p1 H H'. exact (@heis_bad G R signif near H H' quarter J n P p0 p1). Qed.
Print Assumptions C50_rejected.
(** In particular for quantities +1 and -1, whatever the coupling and the length. *)
Theorem C50_refuted : forall (R : ring) signif near quarter (J : R) n (P : btensor z_group R), (forall x, near x x = true) -> near rz ro = false ->
  2 <= n -> phys_dim 2 P -> phys_carries P 0 (q 1) -> phys_carries P 1 (q (-1)) -> b_Heisenberg signif near quarter J n P = Throw InvalidArgument.
Proof.
  intros R signif near quarter J n P H1 H2 Hn HP P0 P1. apply (C50_rejected _ _ _ _ _ _ _ _ _ _ H1 H2 Hn HP P0 P1).
  intros [E _]. apply (f_equal (@proj1_sig _ _)) in E. vm_compute in E. discriminate.
Qed.
Print Assumptions C50_refuted.
(** A weak coupling is refused whatever the quantities: its blocks are dropped as insignificant, and then missed. *)
Theorem C50_weak_refuted : forall (G : abgroup) (R : ring) signif near quarter (J : R) n (P : btensor G R) p0 p1, (forall x, near x x = true) ->
  2 <= n -> phys_dim 2 P -> phys_carries P 0 p0 -> phys_carries P 1 p1 ->
  near rz (rmul (radd ro ro) (quarter (ropp J))) = false -> (forall D, only D (rmul (radd ro ro) (quarter (ropp J))) -> signif D = false) ->
  b_Heisenberg signif near quarter J n P = Throw InvalidArgument.
Proof. intros G R signif near quarter J n P p0 p1 H. exact (@heis_faint G R signif near H quarter J n P p0 p1). Qed.
Print Assumptions C50_weak_refuted.

(** C69. Hubbard: with quantities p0 (empty), p1, p2 (one electron) and p3 (two) of the four states, the condition is p0 p0 = e and
    p0 p3 = p1 p2. It holds for every neutral empty state and additive p3. *)
Theorem C69_accepted_partial : forall (G : abgroup) (R : ring) signif near (U mu : R) n (P : btensor G R) p0 p1 p2 p3, (forall x, near x x = true) ->
  2 <= n -> phys_dim 4 P -> phys_carries P 0 p0 -> phys_carries P 1 p1 -> phys_carries P 2 p2 -> phys_carries P 3 p3 -> visible signif ro -> visible signif (ropp ro) ->
  (forall x, In x [ropp mu; rsub U (radd mu mu)] -> x = rz \/ visible signif x) ->
  qop G p0 p0 = qe G -> qop G p0 p3 = qop G p1 p2 ->
  exists Ts Ws, b_Hubbard signif near U mu n P = Ok Ts /\ Hubbard U mu n = Ok Ws /\ block_mpo P Ts Ws ([1], [p0]) ([1], [p0]) /\
    inner_bonds Ts (bdual G (repeat 1 6, [p0; p1; p2; qinv G p1; qinv G p2; p0])).
Proof. intros G R signif near U mu n P p0 p1 p2 p3 H. exact (@hub_ok G R signif near H U mu n P p0 p1 p2 p3). Qed.
Print Assumptions C69_accepted_partial.
Theorem C69_rejected : forall (G : abgroup) (R : ring) signif near (U mu : R) n (P : btensor G R) p0 p1 p2 p3, (forall x, near x x = true) -> near rz ro = false ->
  2 <= n -> phys_dim 4 P -> phys_carries P 0 p0 -> phys_carries P 1 p1 -> phys_carries P 2 p2 -> phys_carries P 3 p3 ->
  ~ (qop G p0 p0 = qe G /\ qop G p0 p3 = qop G p1 p2) -> b_Hubbard signif near U mu n P = Throw InvalidArgument.
Proof. intros G R signif near U mu n P p0 p1 p2 p3 H H'. exact (@hub_bad G R signif near H H' U mu n P p0 p1 p2 p3). Qed.
Print Assumptions C69_rejected.

(** * Examples: rational numbers with the thresholds of the code *)
Lemma three_ok : (1 <= 3 <= 32768)%Z. Proof. split; discriminate. Qed.
Definition c3 := cyc_group 3 three_ok.
Definition cq (z : Z) (p : c_legal 3 z = true) : c3 := exist _ z p.
(** Two states with quantities 1 and 2 modulo 3; J = 2. *)
Definition ex_spin : btensor c3 ring_Qc := @of_struct c3 ring_Qc [[(1, cq 1 eq_refl); (1, cq 2 eq_refl)]] (qe c3).
Example C50_ex : exists Ts Ws, b_Heisenberg qc_signif qc_near qc_quarter (qc 2 1) 3 ex_spin = Ok Ts /\ Heisenberg qc_quarter (qc 2 1) 3 = Ok Ws /\
  block_mpo ex_spin Ts Ws ([1], [qe c3]) ([1], [qe c3]) /\ inner_bonds Ts (bdual c3 (repeat 1 5, [qe c3; cq 1 eq_refl; cq 2 eq_refl; qe c3; qe c3])).
Proof.
  apply (C50_accepted_partial c3 ring_Qc qc_signif qc_near qc_quarter (qc 2 1) 3 ex_spin (cq 1 eq_refl) (cq 2 eq_refl) qc_near_refl); try lia.
  - split; [split; [reflexivity|split; reflexivity]|split; reflexivity].
  - exists 0, 0. split; [unfold located; cbn; lia|reflexivity].
  - exists 1, 0. split; [unfold located; cbn; lia|reflexivity].
  - exact (qc_visible ro eq_refl).
  - exact (qc_visible (ropp ro) eq_refl).
  - intros x [<-|[<-|[<-|[]]]]; right; refine (qc_visible _ _); reflexivity.
  - apply sig_eq. reflexivity.
  - apply sig_eq. reflexivity.
Qed.
Example C50_ex_blocks : rmap (map (fun T : btensor c3 ring_Qc => length (b_blocks T))) (b_Heisenberg qc_signif qc_near qc_quarter (qc 2 1) 4 ex_spin) = Ok [6; 12; 12; 6].
Proof. vm_compute. reflexivity. Qed.
(** Quantities +1 and -1. *)
Definition ex_pm : btensor z_group ring_Qc := @of_struct z_group ring_Qc [[(1, q 1); (1, q (-1))]] (qe z_group).
Example C50_refuted_ex : b_Heisenberg qc_signif qc_near qc_quarter (qc 2 1) 3 ex_pm = Throw InvalidArgument.
Proof.
  apply C50_refuted; [exact qc_near_refl|reflexivity|lia|split; [split; [reflexivity|split; reflexivity]|split; reflexivity]| |].
  - exists 0, 0. split; [unfold located; cbn; lia|reflexivity].
  - exists 1, 0. split; [unfold located; cbn; lia|reflexivity].
Qed.
(** J = 1/10000 with the accepted quantities. *)
Example C50_weak_ex : b_Heisenberg qc_signif qc_near qc_quarter (qc 1 10000) 3 ex_spin = Throw InvalidArgument.
Proof.
  apply C50_weak_refuted with (p0 := cq 1 eq_refl) (p1 := cq 2 eq_refl); [exact qc_near_refl|lia|split; [split; [reflexivity|split; reflexivity]|split; reflexivity]| | | |].
  - exists 0, 0. split; [unfold located; cbn; lia|reflexivity].
  - exists 1, 0. split; [unfold located; cbn; lia|reflexivity].
  - reflexivity.
  - intros D [H1 H2]. apply (qc_faint (rmul (radd ro ro) (qc_quarter (ropp (qc 1 10000))))); auto. discriminate.
Qed.
(** Number of electrons: 0, 1, 1, 2; U = 4, mu = 1. *)
Definition ex_electrons : btensor z_group ring_Qc := @of_struct z_group ring_Qc [[(1, q 0); (2, q 1); (1, q 2)]] (qe z_group).
Example C69_ex : exists Ts Ws, b_Hubbard qc_signif qc_near (qc 4 1) (qc 1 1) 3 ex_electrons = Ok Ts /\ Hubbard (qc 4 1) (qc 1 1) 3 = Ok Ws /\
  block_mpo ex_electrons Ts Ws ([1], [q 0]) ([1], [q 0]) /\
  inner_bonds Ts (bdual z_group (repeat 1 6, [q 0; q 1; q 1; qinv z_group (q 1); qinv z_group (q 1); q 0])).
Proof.
  apply (C69_accepted_partial z_group ring_Qc qc_signif qc_near (qc 4 1) (qc 1 1) 3 ex_electrons (q 0) (q 1) (q 1) (q 2) qc_near_refl); try lia.
  - split; [split; [reflexivity|split; reflexivity]|split; reflexivity].
  - exists 0, 0. split; [unfold located; cbn; lia|reflexivity].
  - exists 1, 0. split; [unfold located; cbn; lia|reflexivity].
  - exists 1, 1. split; [unfold located; cbn; lia|reflexivity].
  - exists 2, 0. split; [unfold located; cbn; lia|reflexivity].
  - exact (qc_visible ro eq_refl).
  - exact (qc_visible (ropp ro) eq_refl).
  - intros x [<-|[<-|[]]]; right; refine (qc_visible _ _); reflexivity.
  - apply sig_eq. reflexivity.
  - apply sig_eq. reflexivity.
Qed.
(** The vacuum carrying one unit. *)
Definition ex_shifted : btensor z_group ring_Qc := @of_struct z_group ring_Qc [[(1, q 1); (2, q 2); (1, q 3)]] (qe z_group).
Example C69_rejected_ex : b_Hubbard qc_signif qc_near (qc 4 1) (qc 1 1) 3 ex_shifted = Throw InvalidArgument.
Proof.
  apply C69_rejected with (p0 := q 1) (p1 := q 2) (p2 := q 2) (p3 := q 3); [exact qc_near_refl|reflexivity|lia|split; [split; [reflexivity|split; reflexivity]|split; reflexivity]| | | | |].
  - exists 0, 0. split; [unfold located; cbn; lia|reflexivity].
  - exists 1, 0. split; [unfold located; cbn; lia|reflexivity].
  - exists 1, 1. split; [unfold located; cbn; lia|reflexivity].
  - exists 2, 0. split; [unfold located; cbn; lia|reflexivity].
  - intros [E _]. apply (f_equal (@proj1_sig _ _)) in E. vm_compute in E. discriminate.
Qed.

(** Random chains of block tensors (C48). *)
From Verif Require Import Base Quantity QuantityProofs Ring SpecIndex Dense BTensor SpecBTensor BTensorEx SpecChain SpecEdges SpecSector Rand SpecRand RandChain SpecRandChain RandChainProofs RandChainThms.
From Coq Require Import Lia.

(** Full claim: for every random source, bond dimension and physical dimensions the result is a chain between trivial bonds with
    total quantity [total]. True for at least one bond value, at least one site, and non-empty physical dimensions with neutral
    rule; an exception is thrown if no configuration was found. With other rules the total is shifted by them. Random values,
    division and square root are arbitrary functions. *)
Theorem C48_chain_partial : forall (G : abgroup) (R : ring) div sqrt (rnd : nat -> list nat -> list nat -> dense R) src bond (phys : list (btensor G R)) total n_pass,
  (forall i k sh, dsh (rnd i k sh) = sh) -> 0 < bond -> phys <> [] -> Forall (@phys_ok G R) phys ->
  random_bMPS div sqrt src rnd bond phys total n_pass = Throw InvalidArgument \/
  exists out, random_bMPS div sqrt src rnd bond phys total n_pass = Ok out /\ random_chain bond phys total out /\
    (Forall (fun P => b_rule P = qe G) phys -> threaded phys total out).
Proof.
  intros G R div sqrt rnd src bond phys total n H1 H2 H3 H4.
  destruct (@random_thm G R div sqrt rnd H1 src bond phys total n H2 H3 H4) as [[H _]|H]; [left; exact H|right; exact H].
Qed.
Print Assumptions C48_chain_partial.

(** Hence no amplitude outside of the requested sector. *)
Theorem C48_sector_partial : forall (G : abgroup) (R : ring) div sqrt (rnd : nat -> list nat -> list nat -> dense R) src bond (phys : list (btensor G R)) total n_pass out D s cs,
  (forall i k sh, dsh (rnd i k sh) = sh) -> 0 < bond -> phys <> [] -> Forall (@phys_ok G R) phys -> Forall (fun P => b_rule P = qe G) phys ->
  random_bMPS div sqrt src rnd bond phys total n_pass = Ok out -> Forall2 (@dense_form G R) out D ->
  config_carries out s cs -> qprod G cs <> total -> amp D s 0 0 = rz.
Proof. exact random_amp. Qed.
Print Assumptions C48_sector_partial.

(** Integers with a common step: if some configuration has the requested total, a chain is returned, whatever the source. *)
Theorem C48_exists_partial : forall (R : ring) div sqrt (rnd : nat -> list nat -> list nat -> dense R) src d S bond (phys : list (btensor z_group R)) total n_pass,
  (forall i k sh, dsh (rnd i k sh) = sh) -> 0 < bond -> phys <> [] -> Forall (@phys_ok z_group R) phys ->
  (0 < d)%Z -> Forall2 (steps d) S (map (@b_cv _ _) phys) -> (reach d S <= 32767)%Z -> n_pass <> 0 -> (exists o, config (map (@b_cv _ _) phys) total o) ->
  exists out, random_bMPS div sqrt src rnd bond phys total n_pass = Ok out.
Proof. exact random_exists. Qed.
Print Assumptions C48_exists_partial.

(** Three spins, total 1, three bond values; "random" values are all 2. Integers with exact division and square root. *)
Definition exSpin : zt := zB (q 0) 1 [2] [1; 1] [q 1; q (-1)] [].
Definition exrnd (i : nat) (k sh : list nat) : dense ring_Z := @d_full ring_Z sh 2%Z.
Definition exchain := @random_bMPS z_group ring_Z Z.div Z.sqrt (fun i => i * i) exrnd 3 [exSpin; exSpin; exSpin] (q 1) 1.
Lemma exSpin_ok : phys_ok exSpin.
Proof. split; [repeat split|]. split; [reflexivity|]. intros l [<-|[]]. cbn. lia. Qed.
Example C48_ex : (forall i k sh, dsh (exrnd i k sh) = sh) /\ Forall (@phys_ok _ _) [exSpin; exSpin; exSpin] /\ Forall (fun P : zt => b_rule P = q 0) [exSpin; exSpin; exSpin] /\
  Forall2 (steps 2) (repeat ((-1)%Z, 1%nat) 3) (map (@b_cv _ _) [exSpin; exSpin; exSpin]) /\ config (map (@b_cv _ _) [exSpin; exSpin; exSpin]) (q 1) [0; 1; 0] /\
  rmap (map (fun T : zt => (legs T, map (map (fun x => proj1_sig x)) (qlegs T), proj1_sig (b_rule T), map fst (b_blocks T)))) exchain =
  Ok [([[1]; [1; 1]; [3]], [[0]; [1; -1]; [0]]%Z, 1%Z, [[0; 0; 0]]);
      ([[3]; [1; 1]; [1; 2]], [[0]; [1; -1]; [-1; 1]]%Z, 0%Z, [[0; 0; 0]; [0; 1; 1]]);
      ([[1; 2]; [1; 1]; [1]], [[1; -1]; [1; -1]; [0]]%Z, 0%Z, [[0; 1; 0]; [1; 0; 0]])].
Proof.
  split; [reflexivity|]. split; [repeat (apply Forall_cons; [apply exSpin_ok|]); apply Forall_nil|]. split; [repeat (apply Forall_cons; [reflexivity|]); apply Forall_nil|].
  split. { repeat apply Forall2_cons; [| | |apply Forall2_nil];
    (split; [intros v [<-|[<-|[]]]; [exists 1|exists 0]; cbn; lia|intros k Hk; cbn [fst snd] in *; destruct k as [|[|k]]; [exists (q (-1))|exists (q 1)|lia]; cbn; auto]). }
  split. { split; [reflexivity|]. split; [|apply sig_eq; vm_compute; reflexivity]. intros [|[|[|i]]] Hi; cbn in *; lia. }
  vm_compute. reflexivity.
Qed.

(** No bond value, or no site: undefined. *)
Theorem C48_no_bond_refuted : forall (G : abgroup) (R : ring) div sqrt (rnd : nat -> list nat -> list nat -> dense R) src (phys : list (btensor G R)) total n_pass,
  phys <> [] -> random_bMPS div sqrt src rnd 0 phys total n_pass = UB.
Proof. exact random_no_bond. Qed.
Print Assumptions C48_no_bond_refuted.
Theorem C48_no_site_refuted : forall (G : abgroup) (R : ring) div sqrt (rnd : nat -> list nat -> list nat -> dense R) src bond n_pass,
  n_pass <> 0 -> @random_bMPS G R div sqrt src rnd bond [] (qe G) n_pass = UB.
Proof. exact random_no_site. Qed.
Print Assumptions C48_no_site_refuted.
(** A physical dimension with another rule shifts the total: a chain of total 3 is returned for total 1. *)
Theorem C48_rule_refuted : exists (phys : list zt) out, Forall (@phys_ok _ _) phys /\ @random_bMPS z_group ring_Z Z.div Z.sqrt (fun i => i) exrnd 1 phys (q 1) 1 = Ok out /\
  qprod z_group (map (@b_rule _ _) out) = q 3.
Proof.
  exists [exSpin; exSpin; zB (q 2) 1 [2] [1; 1] [q 1; q (-1)] []].
  assert (HP : Forall (@phys_ok _ _) [exSpin; exSpin; zB (q 2) 1 [2] [1; 1] [q 1; q (-1)] []]).
  { repeat apply Forall_cons; [apply exSpin_ok|apply exSpin_ok| |apply Forall_nil]. split; [repeat split|]. split; [reflexivity|]. intros l [<-|[]]. cbn. lia. }
  destruct (@C48_chain_partial z_group ring_Z Z.div Z.sqrt exrnd (fun i => i) 1 [exSpin; exSpin; zB (q 2) 1 [2] [1; 1] [q 1; q (-1)] []] (q 1) 1 (fun _ _ _ => eq_refl) Nat.lt_0_1 ltac:(discriminate) HP) as [E|(out & E & (_ & _ & _ & HR & _) & _)].
  - exfalso. apply (f_equal (rmap (fun _ => tt))) in E. vm_compute in E. discriminate.
  - exists out. split; [exact HP|]. split; [exact E|]. rewrite HR. apply sig_eq. vm_compute. reflexivity.
Qed.
Print Assumptions C48_rule_refuted.

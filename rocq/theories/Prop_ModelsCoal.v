(** The Hamiltonians with conserved quantities as the library returns them: Heisenberg (C50) and Hubbard (C69), at least two sites.
    The arguments and hypotheses about [coalesce] are those of C72. *)
From Verif Require Import Base Quantity QuantityProofs Ring Index SpecIndex Dense BTensor SpecBTensor SpecChain SpecSector BTensorEx SpecSvd SvdEx
  Models SpecModels ModelsBlock SpecModelsBlock Truncate SpecTruncate BTrunc SpecBTrunc Coalesce SpecCoalesce ModelsCoal SpecModelsCoal ModelsCoalThms ModelsCoalEx RingQc Prop_ModelsBlock.

(** C50. The tensors of the result are valid, neutral, with the given physical dimension and fitting bonds of at most five elements
    and distinct quantities, and the operator they make up is minus a quarter of J times the sum of sigma.sigma. Full claim: for all
    quantities (see C50_conserving_rejected), couplings (J = 0 is missing) and lengths (one site is missing). *)
Theorem C50_conserving_partial : forall (G : abgroup) (R : ring) (W : weights) imax (gtb : R -> R -> bool) lower (wt : R -> W) dsvd thr, total_order gtb ->
  (forall l, wgtb (total wt l) thr = true <-> exists x, In x l /\ x <> rz) -> (forall x, gtb x rz = true -> gtb x (lower x) = true) ->
  (forall M, (exists m n, dsh M = [m; n]) -> thin M (dsvd M) /\ descending gtb (entries (snd (fst (dsvd M)))) /\ forall x, In x (entries (snd (fst (dsvd M)))) -> gtb rz x = false) ->
  forall signif near, (forall x, near x x = true) ->
  forall quarter (J : R) n (P : btensor G R) p0 p1, (forall x : R, rmul (radd (radd ro ro) (radd ro ro)) (quarter x) = x) -> J <> rz ->
  2 <= n -> phys_dim 2 P -> phys_carries P 0 p0 -> phys_carries P 1 p1 -> visible signif ro -> visible signif (ropp ro) ->
  (forall x, In x [rmul (radd ro ro) (quarter (ropp J)); quarter (ropp J); ropp (quarter (ropp J))] -> x = rz \/ visible signif x) ->
  p1 = qop G p0 p0 -> p0 = qop G p1 p1 -> 5 <= imax -> length (fst (nth 0 (blegs P) ([], []))) <= imax ->
  exists Ts Ds, conserving_Heisenberg signif near imax gtb lower wt dsvd thr quarter J n P = Some (Ok Ts) /\ block_mpo P Ts Ds ([1], [qe G]) ([1], [qe G]) /\ length Ts = n /\ small_bonds 5 Ts /\
    ceq 2 n (cscale (radd (radd ro ro) (radd ro ro)) (mpo_op Ds)) (cscale (ropp J) (csum (fun i => sigma_sigma R n i) (seq 0 (n - 1)))).
Proof. exact (@heis_full). Qed.
Print Assumptions C50_conserving_partial.
Theorem C50_conserving_rejected : forall (G : abgroup) (R : ring) (W : weights) imax gtb lower (wt : R -> W) dsvd thr signif near quarter (J : R) n (P : btensor G R) p0 p1,
  (forall x, near x x = true) -> near rz ro = false -> 2 <= n -> phys_dim 2 P -> phys_carries P 0 p0 -> phys_carries P 1 p1 -> ~ (p1 = qop G p0 p0 /\ p0 = qop G p1 p1) ->
  conserving_Heisenberg signif near imax gtb lower wt dsvd thr quarter J n P = Some (Throw InvalidArgument).
Proof. intros. unfold conserving_Heisenberg. rewrite (C50_rejected G R) with (p0 := p0) (p1 := p1); auto. Qed.
Print Assumptions C50_conserving_rejected.

(** C69. The same for Hubbard, with bonds of at most six elements. *)
Theorem C69_conserving_partial : forall (G : abgroup) (R : ring) (W : weights) imax (gtb : R -> R -> bool) lower (wt : R -> W) dsvd thr, total_order gtb ->
  (forall l, wgtb (total wt l) thr = true <-> exists x, In x l /\ x <> rz) -> (forall x, gtb x rz = true -> gtb x (lower x) = true) ->
  (forall M, (exists m n, dsh M = [m; n]) -> thin M (dsvd M) /\ descending gtb (entries (snd (fst (dsvd M)))) /\ forall x, In x (entries (snd (fst (dsvd M)))) -> gtb rz x = false) ->
  forall signif near, (forall x, near x x = true) ->
  forall (U mu : R) n (P : btensor G R) p0 p1 p2 p3 c_up c_dn F id, fermions (R := R) = (c_up, c_dn, F, id) -> @ro R <> rz ->
  2 <= n -> phys_dim 4 P -> phys_carries P 0 p0 -> phys_carries P 1 p1 -> phys_carries P 2 p2 -> phys_carries P 3 p3 -> visible signif ro -> visible signif (ropp ro) ->
  (forall x, In x [ropp mu; rsub U (radd mu mu)] -> x = rz \/ visible signif x) ->
  qop G p0 p0 = qe G -> qop G p0 p3 = qop G p1 p2 -> 6 <= imax -> length (fst (nth 0 (blegs P) ([], []))) <= imax ->
  let C s i := with_string n i (of_dense F) (of_dense (if s : bool then c_up else c_dn)) in
  let N s i := cmul 4 n (cadj (C s i)) (C s i) in
  let hop s i j := cmul 4 n (cadj (C s i)) (C s j) in
  exists Ts Ds, conserving_Hubbard signif near imax gtb lower wt dsvd thr U mu n P = Some (Ok Ts) /\ block_mpo P Ts Ds ([1], [p0]) ([1], [p0]) /\ length Ts = n /\ small_bonds 6 Ts /\
    ceq 4 n (mpo_op Ds)
      (cadd (csum (fun i => cadd (cscale U (cmul 4 n (N true i) (N false i))) (cscale (ropp mu) (cadd (N true i) (N false i)))) (seq 0 n))
            (csum (fun i => csum (fun s => cadd (hop s i (S i)) (hop s (S i) i)) [true; false]) (seq 0 (n - 1)))).
Proof. exact (@hub_full). Qed.
Print Assumptions C69_conserving_partial.
Theorem C69_conserving_rejected : forall (G : abgroup) (R : ring) (W : weights) imax gtb lower (wt : R -> W) dsvd thr signif near (U mu : R) n (P : btensor G R) p0 p1 p2 p3,
  (forall x, near x x = true) -> near rz ro = false -> 2 <= n -> phys_dim 4 P -> phys_carries P 0 p0 -> phys_carries P 1 p1 -> phys_carries P 2 p2 -> phys_carries P 3 p3 ->
  ~ (qop G p0 p0 = qe G /\ qop G p0 p3 = qop G p1 p2) -> conserving_Hubbard signif near imax gtb lower wt dsvd thr U mu n P = Some (Throw InvalidArgument).
Proof. intros. unfold conserving_Hubbard. rewrite (C69_rejected G R) with (p0 := p0) (p1 := p1) (p2 := p2) (p3 := p3); auto. Qed.
Print Assumptions C69_conserving_rejected.

(** * Examples: those of Prop_ModelsBlock.v, compressed *)
Example C50_conserving_ex : exists Ts Ds, conserving_Heisenberg qc_signif qc_near 100 qc_gt qc_half qc_wt (@one_sided ring_Qc) 0%N qc_quarter (qc 2 1) 3 ex_spin = Some (Ok Ts) /\
  block_mpo ex_spin Ts Ds ([1], [qe c3]) ([1], [qe c3]) /\ length Ts = 3 /\ small_bonds 5 Ts /\
  ceq 2 3 (cscale (radd (radd ro ro) (radd ro ro)) (mpo_op Ds)) (cscale (ropp (qc 2 1)) (csum (fun i => sigma_sigma ring_Qc 3 i) (seq 0 2))).
Proof.
  apply (C50_conserving_partial c3 ring_Qc w_N 100 qc_gt qc_half qc_wt (@one_sided ring_Qc) 0%N qc_gt_order qc_total qc_half_low qc_svd qc_signif qc_near qc_near_refl qc_quarter (qc 2 1) 3 ex_spin (cq 1 eq_refl) (cq 2 eq_refl)); try lia.
  - exact qc_quarter_ok.
  - discriminate.
  - split; [split; [reflexivity|split; reflexivity]|split; reflexivity].
  - exists 0, 0. split; [unfold located; cbn; lia|reflexivity].
  - exists 1, 0. split; [unfold located; cbn; lia|reflexivity].
  - exact (qc_visible ro eq_refl).
  - exact (qc_visible (ropp ro) eq_refl).
  - intros x [<-|[<-|[<-|[]]]]; right; refine (qc_visible _ _); reflexivity.
  - apply sig_eq. reflexivity.
  - apply sig_eq. reflexivity.
  - cbn. lia.
Qed.
(** Section sizes before and after the compression. *)
Example C50_conserving_ex_sizes :
  rmap (map (fun T : btensor c3 ring_Qc => b_ss T)) (b_Heisenberg qc_signif qc_near qc_quarter (qc 2 1) 3 ex_spin) =
    Ok [[1; 1; 1; 1; 1; 1; 1; 1; 1; 1]; [1; 1; 1; 1; 1; 1; 1; 1; 1; 1; 1; 1; 1; 1]; [1; 1; 1; 1; 1; 1; 1; 1; 1; 1]] /\
  option_map (rmap (map (fun T : btensor c3 ring_Qc => b_ss T))) (conserving_Heisenberg qc_signif qc_near 100 qc_gt qc_half qc_wt (@one_sided ring_Qc) 0%N qc_quarter (qc 2 1) 3 ex_spin) =
    Some (Ok [[1; 1; 1; 2; 1; 1; 1; 1]; [2; 1; 1; 1; 1; 3; 1; 1; 1; 1]; [3; 1; 1; 1; 1; 1; 1; 1]]).
Proof. split; vm_compute; reflexivity. Qed.
Example C50_conserving_rejected_ex : conserving_Heisenberg qc_signif qc_near 100 qc_gt qc_half qc_wt (@one_sided ring_Qc) 0%N qc_quarter (qc 2 1) 3 ex_pm = Some (Throw InvalidArgument).
Proof. unfold conserving_Heisenberg. rewrite C50_refuted_ex. reflexivity. Qed.
Example C69_conserving_ex : exists (c_up c_dn F id : dense ring_Qc) Ts Ds, @fermions ring_Qc = (c_up, c_dn, F, id) /\
  let C s i := with_string 3 i (of_dense F) (of_dense (if s : bool then c_up else c_dn)) in
  let N s i := cmul 4 3 (cadj (C s i)) (C s i) in
  let hop s i j := cmul 4 3 (cadj (C s i)) (C s j) in
  conserving_Hubbard qc_signif qc_near 100 qc_gt qc_half qc_wt (@one_sided ring_Qc) 0%N (qc 4 1) (qc 1 1) 3 ex_electrons = Some (Ok Ts) /\
  block_mpo ex_electrons Ts Ds ([1], [q 0]) ([1], [q 0]) /\ length Ts = 3 /\ small_bonds 6 Ts /\
  ceq 4 3 (mpo_op Ds)
    (cadd (csum (fun i => cadd (cscale (qc 4 1) (cmul 4 3 (N true i) (N false i))) (cscale (ropp (qc 1 1)) (cadd (N true i) (N false i)))) (seq 0 3))
          (csum (fun i => csum (fun s => cadd (hop s i (S i)) (hop s (S i) i)) [true; false]) (seq 0 2))).
Proof.
  destruct (@fermions ring_Qc) as [[[c_up c_dn] F] id] eqn:EF.
  destruct (C69_conserving_partial z_group ring_Qc w_N 100 qc_gt qc_half qc_wt (@one_sided ring_Qc) 0%N qc_gt_order qc_total qc_half_low qc_svd qc_signif qc_near qc_near_refl (qc 4 1) (qc 1 1) 3 ex_electrons (q 0) (q 1) (q 1) (q 2) c_up c_dn F id EF)
    as (Ts & Ds & H); try lia; [| | | | | | | | | | | |exists c_up, c_dn, F, id, Ts, Ds; split; [reflexivity|exact H]].
  - discriminate.
  - split; [split; [reflexivity|split; reflexivity]|split; reflexivity].
  - exists 0, 0. split; [unfold located; cbn; lia|reflexivity].
  - exists 1, 0. split; [unfold located; cbn; lia|reflexivity].
  - exists 1, 1. split; [unfold located; cbn; lia|reflexivity].
  - exists 2, 0. split; [unfold located; cbn; lia|reflexivity].
  - exact (qc_visible ro eq_refl).
  - exact (qc_visible (ropp ro) eq_refl).
  - intros x [<-|[<-|[]]]; right; refine (qc_visible _ _); reflexivity.
  - apply sig_eq. reflexivity.
  - apply sig_eq. reflexivity.
  - cbn. lia.
Qed.
Example C69_conserving_ex_sizes :
  option_map (rmap (map (fun T : btensor z_group ring_Qc => b_ss T))) (conserving_Hubbard qc_signif qc_near 100 qc_gt qc_half qc_wt (@one_sided ring_Qc) 0%N (qc 4 1) (qc 1 1) 3 ex_electrons) =
    Some (Ok [[1; 1; 2; 1; 2; 2; 2; 1; 2; 1]; [2; 2; 2; 1; 2; 1; 2; 2; 2; 1; 2; 1]; [2; 2; 2; 1; 2; 1; 1; 1; 2; 1]]).
Proof. vm_compute; reflexivity. Qed.
Example C69_conserving_rejected_ex : conserving_Hubbard qc_signif qc_near 100 qc_gt qc_half qc_wt (@one_sided ring_Qc) 0%N (qc 4 1) (qc 1 1) 3 ex_shifted = Some (Throw InvalidArgument).
Proof. unfold conserving_Hubbard. rewrite C69_rejected_ex. reflexivity. Qed.

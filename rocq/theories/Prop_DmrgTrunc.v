(** Runs of DMRG that discard singular values (C76). *)
From Verif Require Import Base Ring SpecIndex Dense BTensor Tensordot Chain SpecChain SpecMove SpecSvd Truncate MoveOc Num Lanczos SpecLanczos SiteUpdate SpecSiteUpdate Dmrg DmrgRun SpecDmrgRun LanczosEx SiteUpdateEx BellEx BellRun.

(** "The energy returned is that of the chain returned" is false of runs that discard singular values, however many sweeps are made: two spins up, the
    product of the first Pauli matrices, maximum bond dimension one. The run returns minus one; the chain it leaves has norm one and energy zero. *)
Theorem C76_truncated_refuted : forall (N : numeric) (W : weights) (slack : nat) (eps e_init crit : N) (wt : N -> W) (thr : W) (undef : dense N) (max_iter : nat),
  0 < slack -> le N rz eps -> eps <> rz -> le N eps ro -> 1 <= max_iter ->
  exists dsvd : dense N -> dense N * dense N * dense N,
  (forall M, (exists m n, dsh M = [m; n]) -> thin M (dsvd M) /\ real_entries (snd (fst (dsvd M)))) /\
  (forall M, (exists m n, dsh M = [m; n]) -> descending (snd (fst (dsvd M)))) /\
  exists hs sites, let l := @d_full N [1; 1; 1] ro in mps_fit (@dsh N) (fun k => k) sites 1 1 /\ mpo_fit (@dsh N) (fun k => k) hs sites sites 1 1 /\ canonical sites 0 /\
    hermitian_chain hs l l (map (size 1) sites) /\ chain_norm sites 1 1 = ro /\
    (forall k s Es p, reached slack eps dsvd wt thr 1 1 undef hs sites 0 k s Es -> d_oc s = Z.of_nat p -> svd_right dsvd eps hs l l (d_sites s) p /\ improvable_at eps hs l l (d_sites s) p) /\
    exists E sites' c, t_dmrg slack eps e_init crit dsvd wt thr 1 1 undef max_iter hs sites 0 = Some (Ok (E, sites', c)) /\
      dv E [] = ropp ro /\ chain_energy hs l l sites' = rz /\ chain_norm sites' 1 1 = ro.
Proof.
  exact (fun N W slack eps e_init crit wt thr undef mi H P Z O I => ex_intro _ (@ex_bell N) (Logic.conj (@bell_thin N) (Logic.conj (@bell_val N)
    (@bell_all N W slack eps e_init crit wt thr undef mi H P Z O I)))).
Qed.
Print Assumptions C76_truncated_refuted.
Example C76_truncated_ex : forall N : numeric, ropp ro <> (rz : N).
Proof. exact minus_one_nz. Qed.

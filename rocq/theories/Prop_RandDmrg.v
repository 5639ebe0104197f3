(** DMRG without an initial state: random chains and the runs that start from them (C85). *)
From Verif Require Import Base Ring SpecIndex Dense BTensor Tensordot Chain SpecChain SpecMove SpecSvd Truncate MoveOc Num BTrunc Lanczos SpecLanczos SpecSiteUpdate Dmrg DmrgRun SpecDmrgRun Prop_DmrgRun RandDmrg SpecRandDmrg RandDmrgThms DmrgRunEx RandDmrgEx RandDmrgEx2.

(** C85. Full claim: [random_MPS] gives, for every chain of operators, a chain of states that it can be applied to, with the bonds asked for and
    bonds of size one at the ends; [dmrg(hamiltonian, options)], which starts from such a chain, returns a normalized chain in canonical form around
    the site reported, with the physical dimensions of the operators, and the energy of that chain.
    First part: the chains, for the overload with operators ... *)
Theorem C85_chain : forall (N : numeric) (draw : nat -> list nat -> N) bd (hs : list (dense N)) ps o o', 1 <= length hs -> 1 <= bd -> ham_fit hs ps o o' ->
  exists sites, random_MPS_hamil draw bd hs = Ok sites /\ length sites = length hs /\
    (forall i, i < length hs -> exists A, nth_error sites i = Some A /\ dsh A = random_shape (length hs) bd ps i /\ forall j, dv A j = draw i j) /\
    mps_fit (@dsh N) (fun k => k) sites 1 1 /\ mpo_fit (@dsh N) (fun k => k) hs sites sites o o' /\ map (size 1) sites = ps.
Proof. exact @random_hamil_ok. Qed.
Print Assumptions C85_chain.
(** ... for the overload with a list of dimensions and that with one dimension for all sites. *)
Theorem C85_list : forall (N : numeric) (draw : nat -> list nat -> N) bd ps, 1 <= length ps -> 1 <= bd ->
  exists sites, random_MPS_list draw bd ps = Ok sites /\ length sites = length ps /\
    (forall i, i < length ps -> exists A, nth_error sites i = Some A /\ dsh A = random_shape (length ps) bd ps i /\ forall j, dv A j = draw i j) /\
    mps_fit (@dsh N) (fun k => k) sites 1 1 /\ map (size 1) sites = ps.
Proof. exact @random_list_ok. Qed.
Print Assumptions C85_list.
Theorem C85_same : forall (N : numeric) (draw : nat -> list nat -> N) len bd p, 1 <= len -> 1 <= bd ->
  exists sites, random_MPS_same draw len bd p = Ok sites /\ length sites = len /\
    (forall i, i < len -> exists A, nth_error sites i = Some A /\ dsh A = random_shape len bd (repeat p len) i /\ forall j, dv A j = draw i j) /\
    mps_fit (@dsh N) (fun k => k) sites 1 1 /\ map (size 1) sites = repeat p len.
Proof. exact @random_same_ok. Qed.
Print Assumptions C85_same.
(** No site at all: the first element of an empty vector is read. *)
Theorem C85_empty_refuted : forall (N : numeric) (draw : nat -> list nat -> N) bd, random_MPS_hamil draw bd [] = UB /\ random_MPS_list draw bd [] = UB /\ forall p, random_MPS_same draw 0 bd p = UB.
Proof. exact @random_empty. Qed.
Print Assumptions C85_empty_refuted.

(** Second part, for every run that returns, whatever the numbers drawn. *)
Theorem C85_returned : forall (N : numeric) (W : weights) (draw : nat -> list nat -> N) (slack : nat) (eps e_init crit : N) (dsvd : dense N -> dense N * dense N * dense N) (wt : N -> W) (thr : W) (mn mx : Z) (undef : dense N),
  0 < slack ->
  (forall M, (exists m n, dsh M = [m; n]) -> thin M (dsvd M) /\ real_entries (snd (fst (dsvd M)))) ->
  (forall M, (exists m n, dsh M = [m; n]) -> descending (snd (fst (dsvd M)))) ->
  (1 <= mn <= mx)%Z ->
  forall (hs : list (dense N)) ps o o' max_iter,
  let l := @d_full N [1; o; 1] ro in let e := @d_full N [1; o'; 1] ro in
  let total := max_iter * sweep_size (length hs) in
  2 <= length hs -> ham_fit hs ps o o' -> hermitian_chain hs l e ps ->
  (forall sites k s Es p, random_MPS_hamil draw (Z.to_nat mn) hs = Ok sites -> k < total -> reached slack eps dsvd wt thr mn mx undef hs sites 0 k s Es -> d_oc s = Z.of_nat p ->
    svd_right dsvd eps hs l e (d_sites s) p /\ forall b, bond_max (d_sites s) p b -> (Z.of_nat b <= 2 ^ 63)%Z) ->
  (forall sites k s Es A Mx, random_MPS_hamil draw (Z.to_nat mn) hs = Ok sites -> k <= total -> reached slack eps dsvd wt thr mn mx undef hs sites 0 k s Es -> d_oc s = 0%Z -> nth_error (d_sites s) 1 = Some A -> cut_matrix 1 A Mx -> isometries Mx (dsvd Mx)) ->
  1 <= max_iter ->
  forall E sites' c, t_dmrg_random draw slack eps e_init crit dsvd wt thr mn mx undef max_iter hs = Some (Ok (E, sites', c)) ->
  mps_fit (@dsh N) (fun k => k) sites' 1 1 /\ map (size 1) sites' = ps /\ chain_norm sites' 1 1 = ro /\ c = 0%Z /\ canonical sites' 0.
Proof.
  intros N W draw slack eps e_init crit dsvd wt thr mn mx undef H1 H2 H3 H4 hs ps o o' mi l e total HL HF HC HG HM HI E sites' c.
  destruct (@C85_chain N draw (Z.to_nat mn) hs ps o o' ltac:(lia) ltac:(lia) HF) as (sites & ES & LS & _ & F & O & PS). unfold t_dmrg_random. rewrite ES. cbn [obind]. intros R.
  destruct (@C76_returned N W slack eps e_init crit dsvd wt thr mn mx undef H1 H2 H3 H4 hs sites 1 o 1 o' 0 mi HL ltac:(lia) F O) with (E := E) (sites' := sites') (c := c) as (R1 & R2 & R3 & R4 & R5); auto.
  - rewrite PS. exact HC.
  - intros k s Es p Hk. apply HG; auto. rewrite LS in Hk. exact Hk.
  - intros k s Es A Mx Hk Rk Z0 NA CM. rewrite LS in Hk. exact (HM sites k s Es A Mx ES Hk Rk Z0 NA CM).
  - rewrite PS in R2. assert (P0 : start_pos (length sites) 0 = 0) by (unfold start_pos; rewrite LS; destruct (Nat.eqb_spec 0 (length hs - 1)); lia). unfold final_centre in R5. rewrite P0 in R4, R5. auto.
Qed.
Print Assumptions C85_returned.

(** Third part, the energy. Missing: chains of three sites with a single sweep (refuted below), and what C76 misses: the last pair has a
    residual of norm [eps] at least or is an eigenvector with a negative eigenvalue, and the last update discards no singular value. *)
Theorem C85_energy_partial : forall (N : numeric) (W : weights) (draw : nat -> list nat -> N) (slack : nat) (eps e_init crit : N) (dsvd : dense N -> dense N * dense N * dense N) (wt : N -> W) (thr : W) (mn mx : Z) (undef : dense N),
  0 < slack ->
  (forall M, (exists m n, dsh M = [m; n]) -> thin M (dsvd M) /\ real_entries (snd (fst (dsvd M)))) ->
  (forall M, (exists m n, dsh M = [m; n]) -> descending (snd (fst (dsvd M)))) ->
  (1 <= mn <= mx)%Z ->
  forall (hs : list (dense N)) ps o o' max_iter,
  let l := @d_full N [1; o; 1] ro in let e := @d_full N [1; o'; 1] ro in
  let total := max_iter * sweep_size (length hs) in
  2 <= length hs -> ham_fit hs ps o o' -> hermitian_chain hs l e ps ->
  (forall sites k s Es p, random_MPS_hamil draw (Z.to_nat mn) hs = Ok sites -> k < total -> reached slack eps dsvd wt thr mn mx undef hs sites 0 k s Es -> d_oc s = Z.of_nat p ->
    svd_right dsvd eps hs l e (d_sites s) p /\ forall b, bond_max (d_sites s) p b -> (Z.of_nat b <= 2 ^ 63)%Z) ->
  (forall sites k s Es A Mx, random_MPS_hamil draw (Z.to_nat mn) hs = Ok sites -> k <= total -> reached slack eps dsvd wt thr mn mx undef hs sites 0 k s Es -> d_oc s = 0%Z -> nth_error (d_sites s) 1 = Some A -> cut_matrix 1 A Mx -> isometries Mx (dsvd Mx)) ->
  1 <= max_iter -> le N rz eps -> eps <> rz ->
  forall E sites' c, t_dmrg_random draw slack eps e_init crit dsvd wt thr mn mx undef max_iter hs = Some (Ok (E, sites', c)) ->
  exists sites k s1 Es1 s2 Es2 p, random_MPS_hamil draw (Z.to_nat mn) hs = Ok sites /\
    reached slack eps dsvd wt thr mn mx undef hs sites 0 k s1 Es1 /\ reached slack eps dsvd wt thr mn mx undef hs sites 0 (S k) s2 Es2 /\ sweep_size (length hs) <= S k <= total /\ d_oc s1 = Z.of_nat p /\ E = last Es2 E /\
    (length hs <> 3 \/ sweep_size (length hs) < S k -> improvable_at eps hs l e (d_sites s1) p -> full_bond (d_sites s2) p -> dv E [] = chain_energy hs l e sites').
Proof.
  intros N W draw slack eps e_init crit dsvd wt thr mn mx undef H1 H2 H3 H4 hs ps o o' mi l e total HL HF HC HG HM HI Pe Ze E sites' c.
  destruct (@C85_chain N draw (Z.to_nat mn) hs ps o o' ltac:(lia) ltac:(lia) HF) as (sites & ES & LS & _ & F & O & PS). unfold t_dmrg_random. rewrite ES. cbn [obind]. intros R.
  destruct (@C76_any_start_partial N W slack eps e_init crit dsvd wt thr mn mx undef H1 H2 H3 H4 hs sites 1 o 1 o' 0 mi HL ltac:(lia) F O) with (E := E) (sites' := sites') (c := c) as (k & s1 & Es1 & s2 & Es2 & p & R1 & R2 & R3 & R4 & R5 & R6); auto.
  - rewrite PS. exact HC.
  - intros k s Es p Hk. apply HG; auto. rewrite LS in Hk. exact Hk.
  - intros k s Es A Mx Hk Rk Z0 NA CM. rewrite LS in Hk. exact (HM sites k s Es A Mx ES Hk Rk Z0 NA CM).
  - rewrite LS in R3. exists sites, k, s1, Es1, s2, Es2, p. split; [reflexivity|]. do 5 (split; [assumption|]). intros D. apply R6. destruct D; auto.
Qed.
Print Assumptions C85_energy_partial.

(** Chains of three sites: when all that is drawn is 1/2 and one sweep is made, the energy returned is not that of the chain returned. The
    second pair of sites is updated before the chain is canonical around it. *)
Theorem C85_three_sites_refuted : forall (N : numeric) (W : weights) (slack : nat) (eps e_init crit : N) (dsvd : dense N -> dense N * dense N * dense N) (wt : N -> W) (thr : W) (mx : Z) (undef : dense N),
  0 < slack ->
  (forall M, (exists m n, dsh M = [m; n]) -> thin M (dsvd M) /\ real_entries (snd (fst (dsvd M)))) ->
  (forall M, (exists m n, dsh M = [m; n]) -> descending (snd (fst (dsvd M)))) ->
  (forall M, dsh M = [1; 1] -> isometries M (dsvd M)) ->
  le N rz eps -> eps <> rz -> let c := n_inv N (two N) in let c4 := rmul (rmul c c) (rmul c c) in le N eps (rmul c4 c4) -> (1 <= 1 <= mx)%Z ->
  exists (draw : nat -> list nat -> N) (hs : list (dense N)), let l := @d_full N [1; 1; 1] ro in
    ham_fit hs [1; 1; 1] 1 1 /\ hermitian_chain hs l l [1; 1; 1] /\ (forall i j, le N rz (draw i j) /\ le N (draw i j) ro /\ draw i j <> ro) /\
    exists E sites', t_dmrg_random draw slack eps e_init crit dsvd wt thr 1 mx undef 1 hs = Some (Ok (E, sites', 0%Z)) /\
      chain_norm sites' 1 1 = ro /\ canonical sites' 0 /\ chain_energy hs l l sites' = ropp ro /\ dv E [] <> chain_energy hs l l sites'.
Proof. exact @three_refuted. Qed.
Print Assumptions C85_three_sites_refuted.

(** A spin in a field of energies -1 and 1 and a site of dimension one, with the numbers 1/2, 0 and 1/2 drawn: the run returns energy -1. *)
Example C85_ex : forall (N : numeric) (eps e_init crit : N) (undef : dense N), le N rz eps -> eps <> rz ->
  let c := n_inv N (two N) in let c4 := rmul (rmul c c) (rmul c c) in le N eps (rmul c4 c4) ->
  exists E sites', t_dmrg_random (field_draw N) 1 eps e_init crit (@ex_col N) (fun _ => 0%N : w_N) 0%N 1 10 undef 1 (field_ham N) = Some (Ok (E, sites', 0%Z)) /\
    dv E [] = ropp ro /\ chain_energy (field_ham N) (@d_full N [1; 1; 1] ro) (@d_full N [1; 1; 1] ro) sites' = ropp ro /\ chain_norm sites' 1 1 = ro /\ canonical sites' 0 /\ map (size 1) sites' = [2; 1].
Proof.
  intros N eps e_init crit undef P Z c c4 O. assert (B : (1 <= 1 <= 10)%Z) by lia.
  destruct (@field_run N w_N 1 eps e_init crit (fun _ => 0%N : w_N) 0%N 10 undef (le_n 1) P Z O B) as (ES & RS & E & sites' & R & LE & LC).
  assert (HF : ham_fit (field_ham N) [2; 1] 1 1) by (exists 1; split; [reflexivity|]; exists 1; split; reflexivity).
  assert (HG : forall sites k s Es p, random_MPS_hamil (field_draw N) (Z.to_nat 1) (field_ham N) = Ok sites -> k < 1 * sweep_size (length (field_ham N)) ->
    reached 1 eps (@ex_col N) (fun _ => 0%N : w_N) 0%N 1 10 undef (field_ham N) sites 0 k s Es -> d_oc s = Z.of_nat p ->
    svd_right (@ex_col N) eps (field_ham N) (@d_full N [1; 1; 1] ro) (@d_full N [1; 1; 1] ro) (d_sites s) p /\ forall b, bond_max (d_sites s) p b -> (Z.of_nat b <= 2 ^ 63)%Z).
  { intros sites k s Es p Q Hk Rk Ep. change (Z.to_nat 1) with 1 in Q. rewrite ES in Q. injection Q as <-. destruct (RS k s Es) as ((b & b' & D & Sb & Sb') & Q & _); [change (k < 2) in Hk; lia|exact Rk|]. assert (p = 0) by lia. subst p. rewrite D. exact (@goodf N w_N b b' Sb Sb' eps (fun _ => 0%N)). }
  assert (HM : forall sites k s Es A Mx, random_MPS_hamil (field_draw N) (Z.to_nat 1) (field_ham N) = Ok sites -> k <= 1 * sweep_size (length (field_ham N)) ->
    reached 1 eps (@ex_col N) (fun _ => 0%N : w_N) 0%N 1 10 undef (field_ham N) sites 0 k s Es -> d_oc s = 0%Z -> nth_error (d_sites s) 1 = Some A -> cut_matrix 1 A Mx -> isometries Mx (@ex_col N Mx)).
  { intros sites k s Es A Mx Q Hk Rk _ NA CM. change (Z.to_nat 1) with 1 in Q. rewrite ES in Q. injection Q as <-. destruct (RS k s Es) as ((b & b' & D & Sb & Sb') & _ & _); [exact Hk|exact Rk|]. rewrite D in NA. injection NA as <-. apply col_iso with 1; [lia|]. destruct CM as [CM _]. rewrite Sb' in CM. exact CM. }
  destruct (@C85_returned N w_N (field_draw N) 1 eps e_init crit (@ex_col N) (fun _ => 0%N : w_N) 0%N 1 10 undef (le_n 1) (@col_thin N) (@col_val N) B (field_ham N) [2; 1] 1 1 1 (le_n 2) HF (@hermf N) HG HM (le_n 1) E sites' 0%Z R) as (_ & PS & NN & _ & CC).
  destruct (@C85_energy_partial N w_N (field_draw N) 1 eps e_init crit (@ex_col N) (fun _ => 0%N : w_N) 0%N 1 10 undef (le_n 1) (@col_thin N) (@col_val N) B (field_ham N) [2; 1] 1 1 1 (le_n 2) HF (@hermf N) HG HM (le_n 1) P Z E sites' 0%Z R)
    as (sites & k & s1 & Es1 & s2 & Es2 & p & Q & R1 & R2 & Hk & Ep & _ & EE).
  change (Z.to_nat 1) with 1 in Q. rewrite ES in Q. injection Q as <-. change (2 <= S k <= 2) in Hk.
  destruct (RS k s1 Es1 ltac:(lia) R1) as (_ & Q1 & I1). destruct (RS (S k) s2 Es2 ltac:(lia) R2) as ((b & b' & D & Sb & Sb') & _ & _). assert (p = 0) by lia. subst p.
  assert (K1 : k = 1) by lia.
  assert (VE : dv E [] = chain_energy (field_ham N) (@d_full N [1; 1; 1] ro) (@d_full N [1; 1; 1] ro) sites').
  { apply EE; [left; discriminate|apply I1, K1|rewrite D; apply fullf; assumption]. }
  assert (V1 : dv E [] = ropp ro) by (apply le_anti; [exact LE|rewrite VE; exact LC]).
  exists E, sites'. split; [exact R|]. split; [exact V1|]. split; [rewrite <- VE; exact V1|]. auto.
Qed.

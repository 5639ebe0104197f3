(** Runs of DMRG that start from a random chain with bonds of one value. *)
From Verif Require Import Base Quantity QuantityProofs FlatMap SpecFlatMap FlatMapProofs Ring Index SpecIndex IndexProofs Dense BTensor SpecBTensor LegsProofs BTensorProofs BTensorThms BTensorThms2 BTensorArith
  Tensordot View Chain SpecChain SpecEdges Edges EdgesProofs EdgesBlock BmmThms SpecSector Num Truncate BSvd SpecSvd SpecMove SpecBTrunc BTrunc SpecTruncate SpecLanczos Lanczos Dmrg DmrgRun BDmrgRun SpecBDmrgRun SpecSiteUpdate SpecDmrgRun DmrgRunProofs BRunMain BRunEnergy BRunThms
  SpecSiteUpdate ChainEnergy Rand SpecRand SpecBcast RandChain SpecRandChain RandChainProofs RandBDmrg SpecRandBDmrg RandBDmrgThms RandUnit.
Set Implicit Arguments.

Section P.
  Context {G : abgroup} {N : numeric}.
  Notation bt := (btensor G N).
  Notation leg := (list nat * list G)%type.
  Variable src : nat -> nat.
  Variable rnd : nat -> list nat -> list nat -> dense N.
  Hypothesis Hrnd : forall i k sh, dsh (rnd i k sh) = sh.
  Hypothesis Hnz : forall i k sh o, in_range sh o = true -> dv (rnd i k sh) o <> rz.
  (** The chain is normalized, and each site is an isometry to both sides. *)
  Theorem random_product (hs : list bt) ps o o' total sites Ds : hs <> [] -> Forall (@valid G N) hs -> Forall nonempty hs -> bham_fit hs ps o o' -> Forall (fun p : leg => Forall (lt 0) (fst p)) ps ->
    random_bMPS_hamil src rnd 1 hs total = Ok sites -> Forall2 (@dense_form G N) sites Ds -> Forall (fun D => left_isometry D /\ right_isometry D) Ds /\ (forall c, canonical Ds c) /\ chain_norm Ds 1 1 = ro.
  Proof.
    intros NE V NO F HP E HD. destruct (@phys_list G N hs ps o o' V NO F) as (Ps & EP & O & RP & BP & L). unfold random_bMPS_hamil, random_bMPS_list in E. rewrite EP in E. cbn [rbind] in E.
    assert (NP : Ps <> []) by (intros ->; destruct hs; [congruence|discriminate]).
    destruct (@specs_ok G N Ps O NP) as (sp & n & E1 & E2). rewrite E1 in E. cbn [rbind] in E. rewrite E2 in E. cbn [rbind] in E.
    assert (U : Forall (@unit_site N) Ds).
    { apply (@random_unit G N rnd Hrnd Hnz src Ps total (S n) sites Ds NP O RP); [|exact E|exact HD]. rewrite <- BP in HP. rewrite Forall_forall in *. intros Q HQ. apply HP, (in_map (fun P : bt => nth 0 (blegs P) ([], []))), HQ. }
    split; [eapply Forall_impl; [|exact U]; intros D; apply unit_iso|]. exact (unit_chain U).
  Qed.

  Theorem random_energy (W : weights) (last_first : bool) (imax : nat) (eps e_init crit : N) (gtb : N -> N -> bool) (lower : N -> N) (wt : N -> W)
      (dsvd : dense N -> dense N * dense N * dense N) (thr : W) (mx : Z) (undef : bt) (hs sites : list bt) (Dhs Ds : list (dense N)) (ps : list leg) (o o' : leg) (co co' tot : G) (max_iter : nat) :
    let Dl := @d_full N [1; bsz G o; 1] ro in let De := @d_full N [1; bsz G o'; 1] ro in let steps := max_iter * sweep_size (length hs) in
    le N rz eps -> eps <> rz -> total_order gtb -> (forall v, gtb v rz = true -> gtb v (lower v) = true) -> lower rz = rz -> (1 <= mx)%Z -> 1 <= imax ->
    (forall M, (exists m n, dsh M = [m; n]) -> thin M (dsvd M) /\ real_entries (snd (fst (dsvd M))) /\ SpecBTrunc.descending gtb (entries (snd (fst (dsvd M)))) /\ forall v, In v (entries (snd (fst (dsvd M)))) -> gtb rz v = false) ->
    (forall v, wgtb (total wt v) thr = true <-> exists y, In y v /\ y <> rz) ->
    2 <= length hs -> Forall2 (stored imax) hs Dhs -> Forall nonempty hs -> bham_fit hs ps o o' -> Forall (fun p : leg => Forall (lt 0) (fst p)) ps ->
    carries_only o co -> carries_only o' co' -> order_ok last_first co = true -> order_ok last_first co' = true -> qop G co (qprod G (map (@b_rule G N) hs)) = co' ->
    hermitian_chain Dhs Dl De (map (fun p : leg => sum_list (fst p)) ps) -> 1 <= max_iter ->
    random_bMPS_hamil src rnd 1 hs tot = Ok sites -> Forall2 (@dense_form G N) sites Ds ->
    (forall l e k s Es p, run_edges last_first hs sites l e -> k < steps -> b_reached last_first imax eps gtb lower wt dsvd thr 1 mx undef hs sites 0 k s Es -> d_oc s = Z.of_nat p ->
      step_fine imax eps gtb dsvd mx hs l e (d_sites s) p) ->
    (forall k s Es p Dk, k < steps -> b_reached last_first imax eps gtb lower wt dsvd thr 1 mx undef hs sites 0 k s Es -> d_oc s = Z.of_nat p ->
      Forall2 (stored imax) (d_sites s) Dk -> chain_norm Dk 1 1 = ro -> improvable_at eps Dhs Dl De Dk p) ->
    exists E DE sites' Ds', b_dmrg_random src rnd last_first imax eps e_init crit gtb lower wt dsvd thr 1 mx undef max_iter hs tot = Some (Ok (E, sites', 0%Z)) /\
      stored imax E DE /\ blegs E = [] /\ Forall2 (stored imax) sites' Ds' /\
      dv DE [] = chain_energy Dhs Dl De Ds' /\ le N (dv DE []) (chain_energy Dhs Dl De Ds) /\ chain_norm Ds' 1 1 = ro /\ canonical Ds' (b_final_centre (length hs) 0).
  Proof.
    intros Dl De steps P Z HO low low0 Hmx Him HT HW HL Sh Ne F HPs Co Co' Oo Oo' HR HH Hi ES HD HC1 HC2.
    assert (Wh : Forall (well imax) hs) by (clear - Sh; induction Sh as [|h D l m H S IH]; constructor; [split; [apply H|apply H]|exact IH]).
    assert (Vh : Forall (@valid G N) hs) by (eapply Forall_impl; [|exact Wh]; intros T H; apply H).
    assert (NE : hs <> []) by (intros ->; cbn in HL; lia).
    destruct (@random_out G N src rnd Hrnd imax 1 hs ps tot o o' sites ltac:(lia) Him NE Wh Ne F ES) as (W1 & W2 & MF & OF & EP & EQ & EL).
    destruct (@random_product hs ps o o' tot sites Ds NE Vh Ne F HPs ES HD) as (_ & CA & CN).
    assert (SS : Forall2 (stored imax) sites Ds) by (clear - HD W1; induction HD as [|T D l m H HD IH]; constructor; inversion W1 as [|? ? W2 W3]; subst; [split; [apply W2|split; [exact H|apply W2]]|auto]).
    assert (SZ : map (size 1) Ds = map (fun p : leg => sum_list (fst p)) ps).
    { rewrite <- EP, map_map. clear - MF HD W1. revert MF. generalize (trivial_bond G) at 1. induction HD as [|T D l m H HD IH]; intros x MF; [reflexivity|]. inversion W1 as [|? ? W2 W3]; subst. destruct MF as (s & k & E & MF). cbn [map]. f_equal; [|eapply IH; eauto].
      destruct H as [SD _]. unfold size. rewrite SD. destruct (blegs3 (proj1 (proj1 W2)) E) as [L _]. rewrite L, E. reflexivity. }
    assert (CT : carries_only (trivial_bond G) (qe G)) by (constructor; [reflexivity|constructor]).
    subst steps. rewrite <- EL in HC1, HC2. rewrite <- SZ in HH.
    destruct (@run_energy G N W last_first imax eps e_init crit gtb lower wt dsvd thr 1 mx undef hs sites Dhs Ds (trivial_bond G) o (trivial_bond G) o' (qe G) (qe G) co co' 0 max_iter
      P Z HO low low0 ltac:(lia) HT HW HL ltac:(lia) SS Sh ltac:(apply Forall_app; split; assumption) MF OF CT CT Co Co' Oo Oo' HR HH (CA 0) CN Hi HC1 HC2) as (E & DE & sites' & Ds' & ER & R1 & R2 & R3 & R4 & R5 & R6 & R7 & _).
    exists E, DE, sites', Ds'. split.
    - unfold b_dmrg_random. change (Z.to_nat 1) with 1. rewrite ES. cbn [obind]. rewrite ER. repeat f_equal. unfold start_pos. destruct (Nat.eqb_spec 0 (length sites - 1)); reflexivity.
    - rewrite <- EL. auto 10.
  Qed.
End P.

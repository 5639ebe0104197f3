(** Random chains of block tensors for chains of operators, and the runs of DMRG that start from them. *)
From Verif Require Import Base Quantity QuantityProofs FlatMap SpecFlatMap FlatMapProofs Ring Index SpecIndex IndexProofs Dense BTensor SpecBTensor LegsProofs BTensorProofs BTensorThms BTensorArith
  Tensordot View SpecView ViewProofs ViewThms Chain SpecChain SpecEdges Edges EdgesProofs EdgesBlock BmmThms SpecSector Num Truncate BSvd SpecSvd SpecMove SpecBTrunc BTrunc Lanczos Dmrg DmrgRun BDmrgRun SpecBDmrgRun BRunMain BRunThms
  Rand SpecRand SpecBcast RandChain SpecRandChain RandChainProofs RandChainThms RandBDmrg SpecRandBDmrg.
Set Implicit Arguments.

Section P.
  Context {G : abgroup} {N : numeric}.
  Notation bt := (btensor G N).
  Notation leg := (list nat * list G)%type.

  Lemma dual_dual (p : leg) : bdual G (bdual G p) = p.
  Proof. destruct p as [a b]. unfold bdual. cbn. rewrite map_map. rewrite map_ext with (g := fun x => x) by apply qinv_inv. rewrite map_id. reflexivity. Qed.

  Lemma blegs4 (T : bt) a b c d : meta_ok T -> blegs T = [a; b; c; d] -> legs T = [fst a; fst b; fst c; fst d] /\ qlegs T = [snd a; snd b; snd c; snd d].
  Proof.
    intros M E. pose proof (legs_length M) as L1. pose proof (qlegs_length M) as L2. unfold blegs in E.
    assert (L : length (legs T) = length (qlegs T)) by congruence.
    pose proof (combine_split _ _ L) as S. rewrite E in S. destruct a, b, c, d. cbn in S. injection S as <- <-. split; reflexivity.
  Qed.

  Lemma phys_of_ok (h : bt) x p' k p : valid h -> nonempty h -> blegs h = [x; p'; k; bdual G p] ->
    exists P, phys_of h = Ok P /\ phys_ok P /\ blegs P = [p] /\ b_rule P = qe G.
  Proof.
    intros V NE B. destruct (blegs4 (proj1 V) B) as [L Q]. unfold phys_of.
    assert (HP : pat_ok (legs h) [Some 0; Some 0; Some 0; None]).
    { unfold nonempty in NE. rewrite L in *. cbn. repeat split; apply NE; cbn; tauto. }
    change [0; 0; 0; -1]%Z with (zpat [Some 0; Some 0; Some 0; None]). rewrite (@shape_from_ok G N h _ (proj1 V) HP (nonempty_sbd (proj1 V) NE)). cbn [rbind].
    destruct (@view_shape_legs G N h _ (proj1 V) HP) as (L1 & Q1 & V1). rewrite L in L1. rewrite Q in Q1. cbn [keep] in L1, Q1. set (s := view_shape h [Some 0; Some 0; Some 0; None]) in *.
    destruct (@shape_list_ok G N [s]) as (s1 & E1 & S1); [discriminate|constructor; [apply V1|constructor]|]. rewrite E1. cbn [rbind].
    cbn [map concat] in S1. rewrite L1, Q1, !app_nil_r in S1. pose proof S1 as (_ & B1 & _).
    unfold set_selection_rule_, is_empty. rewrite B1. cbn [rbind].
    pose proof (inverse_shape (rule_shape (qe G) S1)) as (V2 & B2 & L2 & Q2 & R2).
    eexists. split; [reflexivity|]. split; [|split; [|rewrite R2; apply qinv_e]].
    - split; [apply V2|]. split; [rewrite <- (legs_length (proj1 V2)), L2; reflexivity|]. intros l Hl. rewrite L2 in Hl. cbn in Hl. destruct Hl as [<-|[]].
      apply NE. rewrite L. cbn. tauto.
    - unfold blegs. rewrite L2, Q2. cbn. rewrite <- (dual_dual p) at 3. reflexivity.
  Qed.

  Lemma phys_list (hs : list bt) : forall ps x y, Forall (@valid G N) hs -> Forall nonempty hs -> bham_fit hs ps x y ->
    exists Ps, rmapM phys_of hs = Ok Ps /\ Forall (@phys_ok G N) Ps /\ Forall (fun P : bt => b_rule P = qe G) Ps /\ map (fun P : bt => nth 0 (blegs P) ([], [])) Ps = ps /\ length Ps = length hs.
  Proof.
    induction hs as [|h hs IH]; intros [|p ps] x y V NE F; cbn in F; try tauto.
    - exists []. repeat (split; [constructor|]). reflexivity.
    - destruct F as (k & B & F). inversion V; inversion NE; subst. destruct (@phys_of_ok h _ _ _ _ ltac:(assumption) ltac:(assumption) B) as (P & E & OK & BP & RP).
      destruct (IH ps k y) as (Ps & E' & O' & R' & B' & L'); auto. exists (P :: Ps). cbn [rmapM]. rewrite E. cbn [rbind]. rewrite E'. cbn [rbind].
      split; [reflexivity|]. split; [constructor; auto|]. split; [constructor; auto|]. split; [cbn; rewrite BP, B'; reflexivity|cbn; congruence].
  Qed.
  Lemma specs_ok (Ps : list bt) : Forall (@phys_ok G N) Ps -> Ps <> [] ->
    exists sp n, rmapM (fun P : bt => if b_rank P =? 0 then UB else Ok (prange (b_sbd P) (b_cv P) 0)) Ps = Ok sp /\ n_pass sp = Ok (S n).
  Proof.
    intros F NE. assert (H : exists sp, rmapM (fun P : bt => if b_rank P =? 0 then UB else Ok (prange (b_sbd P) (b_cv P) 0)) Ps = Ok sp /\ length sp = length Ps).
    { clear NE. induction F as [|P Ps O F IH]; [exists []; auto|]. destruct IH as (sp & E & L). cbn [rmapM]. rewrite (proj1 (proj2 O)). cbn [Nat.eqb rbind]. rewrite E. eexists. split; [reflexivity|]. cbn. congruence. }
    destruct H as (sp & E & L). exists sp. destruct sp as [|a sp]; [destruct Ps; [congruence|discriminate]|]. eexists. split; [exact E|]. reflexivity.
  Qed.


  Lemma fit_ops (hs : list bt) : forall ps sites x y, bham_fit hs ps x y -> Forall2 (fun (T : bt) p => nth_error (blegs T) 1 = Some p) sites ps ->
    mpo_fit (@blegs G N) (bdual G) hs sites sites x y.
  Proof.
    induction hs as [|h hs IH]; intros [|p ps] sites x y F S; cbn in F; try tauto; inversion S; subst; cbn; [reflexivity|].
    destruct F as (k & B & F). exists k, p, p. split; [exact B|]. repeat (split; [assumption|]). eapply IH; eauto.
  Qed.
  Lemma fit_second (sites : list bt) : forall x y, mps_fit (@blegs G N) (bdual G) sites x y -> forall T, In T sites -> nth_error (blegs T) 1 = Some (nth 1 (blegs T) ([], [])).
  Proof. induction sites as [|A l IH]; intros x y F T; [intros []|]. destruct F as (s & k & E & F). intros [<-|I]; [rewrite E; reflexivity|eapply IH; eauto]. Qed.

  Lemma sections_le (l : list nat) : Forall (lt 0) l -> length l <= sum_list l.
  Proof. unfold sum_list. induction 1; cbn in *; unfold lt in *; lia. Qed.
  Lemma chain_well imax bd (Hb : 0 < bd) (Hi : bd <= imax) (l : list bt) : forall x, Forall (@valid G N) l -> mps_fit (@blegs G N) (bdual G) l x (trivial_bond G) ->
    length (fst x) <= imax -> 0 < sum_list (fst x) -> (forall T, In T l -> length (fst (nth 1 (blegs T) ([], []))) <= imax /\ 0 < sum_list (fst (nth 1 (blegs T) ([], [])))) ->
    (forall i T, nth_error l i = Some T -> S i < length l -> sum_list (nth 2 (legs T) []) = bd /\ Forall (lt 0) (nth 2 (legs T) [])) ->
    Forall (well imax) l /\ Forall nonempty l.
  Proof.
    induction l as [|A l IH]; intros x V F Hx Px HP HB; [split; constructor|]. inversion V as [|? ? VA Vl]; subst. destruct F as (p & k & E & F).
    destruct (blegs3 (proj1 VA) E) as [LA QA]. specialize (HP A (or_introl eq_refl)) as HA. rewrite E in HA. cbn [nth] in HA.
    assert (HK : length (fst k) <= imax /\ 0 < sum_list (fst k)).
    { destruct l as [|B l']; [cbn in F; subst k; cbn; lia|]. destruct (HB 0 A eq_refl) as [S1 S2]; [cbn; lia|]. rewrite LA in S1, S2. cbn [nth] in S1, S2. pose proof (sections_le S2). lia. }
    destruct (IH k Vl F (proj1 HK) (proj2 HK)) as [W1 W2].
    { intros T I. apply HP. right. exact I. }
    { intros i T E1 L1. apply (HB (S i) T E1). cbn. lia. }
    split; constructor; try assumption.
    - split; [exact VA|]. intros n Hn. rewrite <- (legs_lens (proj1 VA)), LA in Hn. cbn in Hn. destruct Hn as [<-|[<-|[<-|[]]]]; [cbn; exact Hx|apply HA|apply HK].
    - intros z Hz. rewrite LA in Hz. destruct Hz as [<-|[<-|[<-|[]]]]; [exact Px|apply HA|apply HK].
  Qed.
  Lemma ham_phys imax (hs : list bt) : forall ps x y, Forall (well imax) hs -> Forall nonempty hs -> bham_fit hs ps x y ->
    Forall (fun p : leg => length (fst p) <= imax /\ 0 < sum_list (fst p)) ps.
  Proof.
    induction hs as [|h hs IH]; intros [|p ps] x y W NE F; cbn in F; try tauto; [constructor|]. destruct F as (k & B & F). inversion W as [|? ? W1 W2]; inversion NE as [|? ? N1 N2]; subst.
    destruct W1 as [V W1]. destruct (blegs4 (proj1 V) B) as [L _]. constructor; [|eapply IH; eauto]. split.
    - apply W1. rewrite <- (legs_lens (proj1 V)), L. cbn. tauto.
    - apply N1. rewrite L. cbn. tauto.
  Qed.
  Lemma config_same (l l' : list bt) s cs : map (fun A : bt => nth 1 (blegs A) ([], [])) l = map (fun A : bt => nth 1 (blegs A) ([], [])) l' -> config_carries l s cs -> config_carries l' s cs.
  Proof.
    intros E (C1 & C2 & C3). assert (L : length l = length l') by (apply (f_equal (@length _)) in E; rewrite !map_length in E; exact E).
    split; [congruence|]. split; [congruence|]. intros i A HA. destruct (nth_error l i) as [B|] eqn:EB.
    - specialize (C3 i B EB). apply (map_nth_error (fun A : bt => nth 1 (blegs A) ([], []))) in EB, HA. rewrite E in EB. rewrite EB in HA. injection HA as <-. exact C3.
    - apply nth_error_None in EB. assert (i < length l') by (apply nth_error_Some; congruence). lia.
  Qed.
  Variable src : nat -> nat.
  Variable rnd : nat -> list nat -> list nat -> dense N.
  Hypothesis Hrnd : forall i k sh, dsh (rnd i k sh) = sh.
  Lemma random_hamil bd hs ps total o o' : 0 < bd -> hs <> [] -> Forall (@valid G N) hs -> Forall nonempty hs -> bham_fit hs ps o o' ->
    random_bMPS_hamil src rnd bd hs total = Throw InvalidArgument \/
    exists out Ps, random_bMPS_hamil src rnd bd hs total = Ok out /\ random_chain bd Ps total out /\ threaded Ps total out /\ map (fun P : bt => nth 0 (blegs P) ([], [])) Ps = ps /\
      Forall (@phys_ok G N) Ps /\ map (fun T : bt => nth 1 (blegs T) ([], [])) out = ps /\ mpo_fit (@blegs G N) (bdual G) hs out out o o' /\ qprod G (map (@b_rule G N) out) = total /\ length out = length hs.
  Proof.
    intros Hb NE V NO F. destruct (@phys_list hs ps o o' V NO F) as (Ps & E & O & RP & BP & L). unfold random_bMPS_hamil, random_bMPS_list. rewrite E. cbn [rbind].
    assert (NP : Ps <> []) by (intros ->; destruct hs; [congruence|discriminate]).
    destruct (@specs_ok Ps O NP) as (sp & n & E1 & E2). rewrite E1. cbn [rbind]. rewrite E2. cbn [rbind].
    destruct (random_thm (ndiv N) (n_sqrt N) rnd Hrnd src total (S n) Hb NP O) as [[H _]|(out & H & RC & TH)]; [left; exact H|right].
    exists out, Ps. split; [exact H|]. split; [exact RC|]. split; [apply TH, RP|]. split; [exact BP|]. split; [exact O|].
    destruct RC as (_ & MF & PL & QR & _).
    assert (EP : map (fun T : bt => nth 1 (blegs T) ([], [])) out = ps) by (rewrite <- BP; clear - PL; induction PL; cbn; congruence).
    split; [exact EP|]. split.
    - apply (@fit_ops hs ps out o o' F). rewrite <- EP. pose proof (fit_second _ _ _ MF) as S. clear - S. induction out as [|T l IH]; cbn; constructor; [apply S; left; reflexivity|apply IH; intros; apply S; right; assumption].
    - split; [|transitivity (length Ps); [clear - PL; induction PL; cbn; congruence|exact L]]. rewrite QR. clear - RP. induction RP as [|P l HP HN IH]; [apply qop_e_r|]. cbn [map qprod fold_right]. rewrite HP, qop_e_l. exact IH.
  Qed.

  Lemma random_out imax bd hs ps total o o' out : 0 < bd -> bd <= imax -> hs <> [] -> Forall (well imax) hs -> Forall nonempty hs -> bham_fit hs ps o o' ->
    random_bMPS_hamil src rnd bd hs total = Ok out ->
    Forall (well imax) out /\ Forall nonempty out /\ mps_fit (@blegs G N) (bdual G) out (trivial_bond G) (trivial_bond G) /\ mpo_fit (@blegs G N) (bdual G) hs out out o o' /\
      map (fun T : bt => nth 1 (blegs T) ([], [])) out = ps /\ qprod G (map (@b_rule G N) out) = total /\ length out = length hs.
  Proof.
    intros Hb Hi NE W NO F E. assert (V : Forall (@valid G N) hs) by (eapply Forall_impl; [|exact W]; intros T HT; apply HT).
    destruct (@random_hamil bd hs ps total o o' Hb NE V NO F) as [E'|(out' & Ps & E' & (RV & RF & _ & _ & RB) & _ & _ & _ & EP & EO & EQ & EL)]; [congruence|].
    rewrite E in E'. injection E' as <-. pose proof (@ham_phys imax hs ps o o' W NO F) as HP.
    destruct (@chain_well imax bd Hb Hi out (trivial_bond G) RV RF) as [W1 W2]; [cbn; lia|cbn; lia| |exact RB|tauto].
    intros T I. rewrite Forall_forall in HP. apply HP. rewrite <- EP. apply (in_map (fun T : bt => nth 1 (blegs T) ([], []))), I.
  Qed.

  Theorem random_conserved (W : weights) (last_first : bool) (imax : nat) (eps e_init crit : N) (gtb : N -> N -> bool) (lower : N -> N) (wt : N -> W)
      (dsvd : dense N -> dense N * dense N * dense N) (thr : W) (mn mx : Z) (undef : bt) (hs : list bt) (ps : list leg) (o o' : leg) (co co' total : G) (max_iter : nat) (E : bt) (sites' : list bt) (c : Z) :
    total_order gtb -> (forall v, gtb v rz = true -> gtb v (lower v) = true) -> lower rz = rz -> (1 <= mn <= mx)%Z -> Z.to_nat mn <= imax ->
    (forall M, (exists m n, dsh M = [m; n]) -> thin M (dsvd M) /\ SpecBTrunc.descending gtb (entries (snd (fst (dsvd M)))) /\ forall v, In v (entries (snd (fst (dsvd M)))) -> gtb rz v = false) ->
    2 <= length hs -> Forall (well imax) hs -> Forall nonempty hs -> bham_fit hs ps o o' ->
    carries_only o co -> carries_only o' co' -> order_ok last_first co = true -> order_ok last_first co' = true -> qop G co (qprod G (map (@b_rule G N) hs)) = co' ->
    (forall sites l e k s Es p, random_bMPS_hamil src rnd (Z.to_nat mn) hs total = Ok sites -> run_edges last_first hs sites l e -> k < max_iter * sweep_size (length sites) ->
      b_reached last_first imax eps gtb lower wt dsvd thr mn mx undef hs sites 0 k s Es -> d_oc s = Z.of_nat p -> cut_fine imax eps gtb dsvd hs l e (d_sites s) p) ->
    b_dmrg_random src rnd last_first imax eps e_init crit gtb lower wt dsvd thr mn mx undef max_iter hs total = Some (Ok (E, sites', c)) ->
    Forall (well imax) sites' /\ mps_fit (@blegs G N) (bdual G) sites' (trivial_bond G) (trivial_bond G) /\ map (fun A => nth 1 (blegs A) ([], [])) sites' = ps /\
    qprod G (map (@b_rule G N) sites') = total /\ c = 0%Z /\ neutral_scalar imax E /\
    forall D s cs, Forall2 (@dense_form G N) sites' D -> config_carries sites' s cs -> qprod G cs <> total -> amp D s 0 0 = rz.
  Proof.
    intros HO low low0 Hmn Him HT HL Wh Ne F Co Co' Oo Oo' HR HC. unfold b_dmrg_random. destruct (random_bMPS_hamil src rnd (Z.to_nat mn) hs total) as [sites|e|] eqn:ES; cbn [obind]; try discriminate. intros ER.
    assert (NE : hs <> []) by (intros ->; cbn in HL; lia).
    destruct (@random_out imax (Z.to_nat mn) hs ps total o o' sites ltac:(lia) Him NE Wh Ne F ES) as (W1 & W2 & MF & OF & EP & EQ & EL).
    assert (CT : carries_only (trivial_bond G) (qe G)) by (constructor; [reflexivity|constructor]).
    destruct (@conserved G N W last_first imax eps e_init crit gtb lower wt dsvd thr mn mx undef hs sites (trivial_bond G) o (trivial_bond G) o' (qe G) (qe G) co co' 0 max_iter E sites' c
      HO low low0 Hmn HT HL ltac:(lia) W1 Wh ltac:(apply Forall_app; split; assumption) MF OF CT CT Co Co' Oo Oo' HR (fun l e k s Es p => HC sites l e k s Es p eq_refl) ER) as (R1 & R2 & R3 & R4 & R5 & R6 & R7).
    split; [exact R1|]. split; [exact R2|]. split; [congruence|]. split; [congruence|].
    split. { rewrite R5. unfold start_pos. destruct (Nat.eqb_spec 0 (length sites - 1)); reflexivity. }
    split; [exact R6|]. intros D s cs HD HS HQ. assert (C0 : carries (trivial_bond G) 0 (qe G)) by (exists 0, 0; split; [repeat split; cbn; lia|reflexivity]).
    apply (R7 D s cs 0 0 (qe G) (qe G) HD (@config_same sites' sites s cs R3 HS) C0 C0). rewrite qop_e_r, qop_e_l, EQ. exact HQ.
  Qed.
End P.

(** Integers with a common step: the chain exists if the total can be reached. *)
Theorem random_hamil_exists (N : numeric) (src : nat -> nat) (rnd : nat -> list nat -> list nat -> dense N) d S bd (hs : list (btensor z_group N)) ps o o' (total : z_group) :
  (forall i k sh, dsh (rnd i k sh) = sh) -> 0 < bd -> hs <> [] -> Forall (@valid z_group N) hs -> Forall nonempty hs -> bham_fit hs ps o o' ->
  (0 < d)%Z -> Forall2 (steps d) S (map snd ps) -> (reach d S <= 32767)%Z -> (exists s, config (map snd ps) total s) ->
  exists out, random_bMPS_hamil src rnd bd hs total = Ok out.
Proof.
  intros Hr Hb NE V NO F Hd HF HB HC. destruct (@phys_list z_group N hs ps o o' V NO F) as (Ps & E & O & RP & BP & L).
  assert (EC : map (@b_cv z_group N) Ps = map snd ps).
  { rewrite <- BP. clear - O. induction O as [|P l HP O IH]; [reflexivity|]. cbn [map]. f_equal; [|exact IH]. destruct (phys_legs HP) as (L & Q & _). unfold blegs. rewrite L, Q. reflexivity. }
  unfold random_bMPS_hamil, random_bMPS_list. rewrite E. cbn [rbind]. assert (NP : Ps <> []) by (intros ->; destruct hs; [congruence|discriminate]).
  destruct (@specs_ok z_group N Ps O NP) as (sp & n & E1 & E2). rewrite E1. cbn [rbind]. rewrite E2. cbn [rbind].
  apply (@random_exists N (ndiv N) (n_sqrt N) rnd src d S bd Ps total (Datatypes.S n)); auto; rewrite EC; assumption.
Qed.
Lemma random_hamil_empty (G : abgroup) (N : numeric) src rnd bd (total : G) : @random_bMPS_hamil G N src rnd bd [] total = UB.
Proof. reflexivity. Qed.

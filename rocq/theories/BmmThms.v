(** Batched matrix products: compatibility, structure of the result and its entries. *)
From Verif Require Import Base Quantity QuantityProofs FlatMap SpecFlatMap FlatMapProofs FlatMapThms Ring Index SpecIndex IndexProofs Dense LegsProofs BTensor SpecBTensor BTensorProofs BTensorThms ArithProofs
  Tensordot TensordotProofs TensordotThms Reshape SpecReshape View SpecView ViewProofs ViewThms Bcast SpecBcast BcastProofs BcastThms Edges SpecEdges EdgesBlock Bmm SpecBmm BmmProofs BmmLoops.
From Coq Require Import Permutation Lia.
Set Implicit Arguments.

Lemma split2 A m (L : list (list A)) : length L = m + 2 -> exists L0 x y, L = L0 ++ [x; y] /\ length L0 = m.
Proof.
  intros H. exists (firstn m L), (nth m L []), (nth (m + 1) L []). split; [|apply firstn_length_le; lia].
  apply nth_ext' with (d := []); [rewrite app_length, firstn_length_le by lia; cbn; lia|]. intros k Hk. destruct (Nat.lt_ge_cases k m).
  - rewrite app_nth1 by (rewrite firstn_length_le; lia). rewrite <- (firstn_skipn m L) at 1. apply app_nth1. rewrite firstn_length_le; lia.
  - rewrite app_nth2 by (rewrite firstn_length_le; lia). rewrite firstn_length_le by lia. destruct (Nat.eq_dec k m) as [->|]; [rewrite Nat.sub_diag; reflexivity|].
    replace k with (m + 1) by lia. replace (m + 1 - m) with 1 by lia. reflexivity.
Qed.
Section Parts.
  Variables (A : Type) (m : nat) (L : list (list A)) (x y : list A).
  Hypothesis H : length L = m.
  Lemma part_batch : firstn (m + 2 - 2) (L ++ [x; y]) = L. Proof. replace (m + 2 - 2) with (length L) by lia. apply firstn_mid. Qed.
  Lemma part_rows : firstn (m + 2 - 1) (L ++ [x; y]) = L ++ [x].
  Proof. replace (L ++ [x; y]) with ((L ++ [x]) ++ [y]) by (rewrite <- app_assoc; reflexivity). replace (m + 2 - 1) with (length (L ++ [x])) by (rewrite app_length; cbn; lia). apply firstn_mid. Qed.
  Lemma part_1 d : nth (m + 2 - 2) (L ++ [x; y]) d = x. Proof. replace (m + 2 - 2) with (length L) by lia. rewrite app_nth2, Nat.sub_diag by lia. reflexivity. Qed.
  Lemma part_2 d : nth (m + 2 - 1) (L ++ [x; y]) d = y. Proof. rewrite app_nth2 by lia. replace (m + 2 - 1 - length L) with 1 by lia. reflexivity. Qed.
End Parts.
Lemma concat_lens_inj A (L M : list (list A)) : lens L = lens M -> concat L = concat M -> L = M.
Proof.
  revert M; induction L as [|l L IH]; intros [|l' M] H1 H2; try discriminate; [reflexivity|]. cbn in H1, H2. injection H1 as H1 H1'.
  apply app_inj_len in H2 as [-> H2]; [|exact H1]. f_equal. apply IH; auto.
Qed.
Lemma firstn_lens A n (L : list (list A)) : firstn n (lens L) = lens (firstn n L). Proof. apply firstn_map. Qed.
Lemma sum_lens A (L : list (list A)) : sum_list (lens L) = length (concat L). Proof. symmetry. apply concat_length. Qed.

Section T.
  Context {G : abgroup} {R : ring}.
  Add Ring Rr : (ring_th R).
  Notation t := (btensor G R).
  Notation entry := (list nat * dense R)%type.
  Implicit Types A B C : t.

  Lemma ss_concat A : meta_ok A -> b_ss A = concat (legs A).
  Proof. intros (_ & H & _). unfold legs. symmetry. apply concat_unpack. exact H. Qed.
  Lemma inv_all (l m : list G) : length l = length m ->
    forallb (fun '(x, y) => qeqb G (qop G x y) (qe G)) (combine l m) = true <-> forall s, s < length l -> qop G (nth s l (qe G)) (nth s m (qe G)) = qe G.
  Proof.
    revert m; induction l as [|x l IH]; intros [|y m] H; try discriminate; cbn [combine forallb].
    - split; [intros _ s Hs; cbn in Hs; lia|reflexivity].
    - injection H as H. rewrite andb_true_iff, IH by exact H. rewrite qeqb_spec. split.
      + intros [H1 H2] [|s] Hs; cbn in *; [exact H1|apply H2; lia].
      + intros H1. split; [apply (H1 0); cbn; lia|]. intros s Hs. apply (H1 (S s)). cbn. lia.
  Qed.

  Lemma check_spec A B : meta_ok A -> meta_ok B ->
    (bmm_ok A B -> check_bmm A B = Ok tt) /\ (~ bmm_ok A B -> check_bmm A B = Throw InvalidArgument).
  Proof.
    intros MA MB. unfold check_bmm, bmm_ok. destruct (Nat.eqb_spec (b_rank A) (b_rank B)) as [EN|EN]; cbn [negb]; [|split; [intros [H _]; congruence|reflexivity]].
    destruct (Nat.ltb_spec (b_rank A) 2) as [HN|HN]; [split; [intros (_ & H & _); lia|reflexivity]|].
    assert (Em : exists m, b_rank A = m + 2) by (exists (b_rank A - 2); lia). destruct Em as [m Em]. rewrite <- EN, Em.
    pose proof (legs_length MA) as HA. pose proof (legs_length MB) as HB. pose proof (qlegs_length MA) as HQA. pose proof (qlegs_length MB) as HQB.
    rewrite Em in HA, HQA. rewrite <- EN, Em in HB, HQB.
    destruct (@split2 _ m (legs A) HA) as (LA & lr & lk & EA & LLA). destruct (@split2 _ m (legs B) HB) as (LB & lk' & lc & EB & LLB).
    destruct (@split2 _ m (qlegs A) HQA) as (QA & qr & qk & EQA & LQA). destruct (@split2 _ m (qlegs B) HQB) as (QB & qk' & qc & EQB & LQB).
    pose proof (legs_lens MA) as SA. pose proof (legs_lens MB) as SB. pose proof (qlegs_lens MA) as SQA. pose proof (qlegs_lens MB) as SQB.
    assert (PA : forall d, d < m + 2 -> prange (b_sbd A) (b_ss A) d = nth d (legs A) [] /\ prange (b_sbd A) (b_cv A) d = nth d (qlegs A) []).
    { intros d Hd. rewrite !prange_unpack by (rewrite (proj1 MA); lia). auto. }
    assert (PB : forall d, d < m + 2 -> prange (b_sbd B) (b_ss B) d = nth d (legs B) [] /\ prange (b_sbd B) (b_cv B) d = nth d (qlegs B) []).
    { intros d Hd. rewrite !prange_unpack by (rewrite (proj1 MB); lia). auto. }
    rewrite (proj1 (PA (m + 2 - 1) ltac:(lia))), (proj2 (PA (m + 2 - 1) ltac:(lia))), (proj1 (PB (m + 2 - 2) ltac:(lia))), (proj2 (PB (m + 2 - 2) ltac:(lia))).
    rewrite (ss_concat MA), (ss_concat MB). rewrite <- SA, <- SB. rewrite !firstn_lens. rewrite EA, EB, EQA, EQB.
    rewrite !part_batch by auto. rewrite !concat_app. rewrite sum_lens.
    assert (NA : rnth (lens (LA ++ [lr; lk])) (m + 2 - 1) = Ok (length lk)).
    { unfold rnth, lens. rewrite nth_error_map. rewrite nth_error_app2 by lia. replace (m + 2 - 1 - length LA) with 1 by lia. reflexivity. }
    assert (NB : rnth (lens (LB ++ [lk'; lc])) (m + 2 - 2) = Ok (length lk')).
    { unfold rnth, lens. rewrite nth_error_map. rewrite nth_error_app2 by lia. replace (m + 2 - 2 - length LB) with 0 by lia. reflexivity. }
    rewrite NA, NB. rewrite !(@part_1 _ m), !(@part_2 _ m) by auto. cbn [rbind].
    destruct (leqb (lens LA) (lens LB)) eqn:E1; cbn [negb].
    2:{ split; [|reflexivity]. intros (_ & _ & H & _). rewrite H, leqb_refl in E1. discriminate. }
    apply leqb_eq in E1. assert (EC : length (concat LA) = length (concat LB)) by (rewrite <- !sum_lens, E1; reflexivity).
    rewrite firstn_mid. rewrite EC, firstn_mid. destruct (leqb (concat LA) (concat LB)) eqn:E2; cbn [negb].
    2:{ split; [|reflexivity]. intros (_ & _ & H & _). rewrite H, leqb_refl in E2. discriminate. }
    apply leqb_eq in E2. assert (E3 : LA = LB) by (apply concat_lens_inj; auto).
    destruct (Nat.eqb_spec (length lk) (length lk')) as [E4|E4]; cbn [negb]; [|split; [intros (_ & _ & _ & H & _); congruence|reflexivity]].
    destruct (leqb lk lk') eqn:E5; cbn [negb].
    2:{ split; [|reflexivity]. intros (_ & _ & _ & H & _). rewrite H, leqb_refl in E5. discriminate. }
    apply leqb_eq in E5. assert (Lqk : length qk = length lk).
    { assert (H : lens (qlegs A) = lens (legs A)) by congruence. rewrite EA, EQA in H. rewrite !lens_app in H. apply app_inj_len in H as [_ H]; [|rewrite !lens_length; lia]. cbn in H. congruence. }
    assert (Lqk' : length qk' = length lk').
    { assert (H : lens (qlegs B) = lens (legs B)) by congruence. rewrite EB, EQB in H. rewrite !lens_app in H. apply app_inj_len in H as [_ H]; [|rewrite !lens_length; lia]. cbn in H. congruence. }
    pose proof (@inv_all qk qk' ltac:(congruence)) as HI. rewrite Lqk in HI. destruct (forallb _ (combine qk qk')); cbn [negb].
    - split; [reflexivity|]. intros H. exfalso. apply H. split; [reflexivity|]. split; [lia|]. split; [auto|]. split; [auto|]. apply HI. reflexivity.
    - split; [|reflexivity]. intros (_ & _ & _ & _ & H). apply HI in H. discriminate.
  Qed.

  (** A compatible pair, split. *)
  Record pair A B m Lb lr lk lc QA qr qk QB qk' qc : Prop := {
    p_vA : valid A; p_vB : valid B; p_rA : b_rank A = m + 2; p_rB : b_rank B = m + 2; p_m : length Lb = m;
    p_lA : legs A = Lb ++ [lr; lk]; p_lB : legs B = Lb ++ [lk; lc]; p_qA : qlegs A = QA ++ [qr; qk]; p_qB : qlegs B = QB ++ [qk'; qc];
    p_wA : lens QA = lens Lb; p_wr : length qr = length lr; p_wk : length qk = length lk;
    p_wB : lens QB = lens Lb; p_wk' : length qk' = length lk; p_wc : length qc = length lc;
    p_inv : forall s, s < length lk -> qop G (nth s qk (qe G)) (nth s qk' (qe G)) = qe G }.
  Lemma pair_ok A B : valid A -> valid B -> bmm_ok A B -> exists m Lb lr lk lc QA qr qk QB qk' qc, pair A B m Lb lr lk lc QA qr qk QB qk' qc.
  Proof.
    intros VA VB (EN & HN & H1 & H2 & H3). pose proof (proj1 VA) as MA. pose proof (proj1 VB) as MB.
    assert (Em : exists m, b_rank A = m + 2) by (exists (b_rank A - 2); lia). destruct Em as [m Em]. rewrite Em in *.
    pose proof (legs_length MA) as HA. pose proof (legs_length MB) as HB. pose proof (qlegs_length MA) as HQA. pose proof (qlegs_length MB) as HQB.
    rewrite Em in HA, HQA. rewrite EN in HB, HQB.
    destruct (@split2 _ m (legs A) HA) as (LA & lr & lk & EA & LLA). destruct (@split2 _ m (legs B) HB) as (LB & lk' & lc & EB & LLB).
    destruct (@split2 _ m (qlegs A) HQA) as (QA & qr & qk & EQA & LQA). destruct (@split2 _ m (qlegs B) HQB) as (QB & qk' & qc & EQB & LQB).
    rewrite EA, EB, EQA, EQB in *. rewrite !part_batch in H1 by auto. rewrite (@part_1 _ m), (@part_2 _ m) in H2 by auto. rewrite (@part_2 _ m) in H3 by auto. rewrite (@part_1 _ m), (@part_2 _ m) in H3 by auto. subst LB lk'.
    assert (WA : lens (qlegs A) = lens (legs A)) by (rewrite qlegs_lens, legs_lens; auto). assert (WB : lens (qlegs B) = lens (legs B)) by (rewrite qlegs_lens, legs_lens; auto).
    rewrite EA, EQA, !lens_app in WA. rewrite EB, EQB, !lens_app in WB.
    apply app_inj_len in WA as [WA WA']; [|rewrite !lens_length; lia]. apply app_inj_len in WB as [WB WB']; [|rewrite !lens_length; lia]. cbn in WA', WB'.
    injection WA' as WA1 WA2. injection WB' as WB1 WB2.
    exists m, LA, lr, lk, lc, QA, qr, qk, QB, qk', qc. constructor; auto.
  Qed.

  Lemma keep_nones X (L : list X) p l : keep (repeat None (length L) ++ p) (L ++ l) = L ++ keep p l.
  Proof. induction L as [|x L IH]; cbn; [reflexivity|f_equal; exact IH]. Qed.
  Lemma keep_zeros X (L : list X) p l : keep (repeat (Some 0) (length L) ++ p) (L ++ l) = keep p l.
  Proof. induction L as [|x L IH]; cbn; [reflexivity|exact IH]. Qed.
  Lemma pat_nones L p l : pat_ok (L ++ l) (repeat None (length L) ++ p) <-> pat_ok l p.
  Proof. induction L as [|x L IH]; cbn; tauto. Qed.
  Lemma pat_zeros L p l : (forall x, In x L -> 0 < sum_list x) -> pat_ok l p -> pat_ok (L ++ l) (repeat (Some 0) (length L) ++ p).
  Proof. intros H P. induction L as [|x L IH]; cbn; [exact P|]. split; [apply H; left; auto|]. apply IH. intros; apply H; right; auto. Qed.
  Lemma zpat_app p p' : zpat (p ++ p') = zpat p ++ zpat p'. Proof. apply map_app. Qed.
  Lemma zpat_nones n : zpat (repeat None n) = repeat (-1)%Z n. Proof. unfold zpat. induction n; cbn in *; [reflexivity|f_equal; auto]. Qed.
  Lemma zpat_zeros n : zpat (repeat (Some 0) n) = repeat 0%Z n. Proof. unfold zpat. induction n; cbn in *; [reflexivity|f_equal; auto]. Qed.
  Lemma nonempty_sbd A : meta_ok A -> nonempty A -> forall n, In n (b_sbd A) -> 0 < n.
  Proof. intros M N n Hn. rewrite <- (legs_lens M) in Hn. apply in_map_iff in Hn as (l & <- & Hl). specialize (N l Hl). destruct l; cbn in *; lia. Qed.
  Lemma bqleg_same (a b : list G) : length a = length b -> bqleg a b = map2 (qop G) a b.
  Proof.
    intros H. apply nth_ext with (d := qe G) (d' := qe G).
    - rewrite bqleg_length, map2_length by auto. destruct (_ =? 1); congruence.
    - intros i Hi. rewrite bqleg_nth by auto. rewrite bqleg_length in Hi. assert (Hi' : i < length a) by (destruct (_ =? 1); lia).
      rewrite !sel_in by lia. clear Hi. revert b i H Hi'. induction a as [|x a IH]; intros [|y b] i H Hi; try discriminate; cbn in *; [lia|]. destruct i; [reflexivity|]. apply IH; lia.
  Qed.
  Lemma map2_comm (a b : list G) : map2 (qop G) a b = map2 (qop G) b a.
  Proof. revert b; induction a as [|x a IH]; intros [|y b]; cbn; [reflexivity..|]. rewrite qop_comm, IH. reflexivity. Qed.

  Section Main.
    Variables (A B : t) (m : nat) (Lb : list (list nat)) (lr lk lc : list nat) (QA : list (list G)) (qr qk : list G) (QB : list (list G)) (qk' qc : list G).
    Hypothesis P : pair A B m Lb lr lk lc QA qr qk QB qk' qc.
    Let QC := map2 (map2 (qop G)) QA QB.
    Lemma QC_lens : lens QC = lens Lb.
    Proof.
      unfold QC. pose proof (p_wA P) as H1. pose proof (p_wB P) as H2. clear P QC. revert QA QB H1 H2. induction Lb as [|l L IH]; intros [|qa QA0] [|qb QB0] H1 H2; try discriminate; [reflexivity|].
      cbn in *. injection H1 as H1 H1'. injection H2 as H2 H2'. rewrite map2_length by congruence. rewrite H1. f_equal. apply IH; auto.
    Qed.
    Lemma shape_good : nonempty A -> nonempty B -> exists s, bmm_shape A B = Ok s /\ valid s /\ b_blocks s = [] /\ legs s = Lb ++ [lr; lc] /\ qlegs s = QC ++ [qr; qc].
    Proof.
      intros NA NB. pose proof (proj1 (p_vA P)) as MA. pose proof (proj1 (p_vB P)) as MB. pose proof (nonempty_sbd MA NA) as SA. pose proof (nonempty_sbd MB NB) as SB.
      assert (IA : forall l, In l (Lb ++ [lr; lk]) -> 0 < sum_list l) by (rewrite <- (p_lA P); exact NA).
      assert (IB : forall l, In l (Lb ++ [lk; lc]) -> 0 < sum_list l) by (rewrite <- (p_lB P); exact NB).
      assert (Ir : 0 < sum_list lr) by (apply IA, in_or_app; right; left; auto). assert (Ik : 0 < sum_list lk) by (apply IA, in_or_app; right; right; left; auto).
      assert (Ic : 0 < sum_list lc) by (apply IB, in_or_app; right; right; left; auto). assert (ILb : forall l, In l Lb -> 0 < sum_list l) by (intros l Hl; apply IA, in_or_app; auto).
      pose proof (p_m P) as Hm. assert (LQA : length QA = length Lb) by (rewrite <- (lens_length QA), (p_wA P); apply lens_length). assert (LQB : length QB = length Lb) by (rewrite <- (lens_length QB), (p_wB P); apply lens_length).
      unfold bmm_shape. rewrite (p_rA P). replace (m + 2 - 2) with (length Lb) by lia. replace (m + 2 - 1) with (length (Lb ++ [lk])) by (rewrite app_length; cbn; lia).
      set (p1 := repeat None (length Lb) ++ [Some 0; Some 0]). set (p2 := repeat (Some 0) (length Lb) ++ [None; Some 0]). set (p3 := repeat (Some 0) (length (Lb ++ [lk])) ++ [None]).
      replace (repeat (-1)%Z (length Lb) ++ [0%Z; 0%Z]) with (zpat p1) by (unfold p1; rewrite zpat_app, zpat_nones; reflexivity).
      replace (repeat 0%Z (length Lb) ++ [(-1)%Z; 0%Z]) with (zpat p2) by (unfold p2; rewrite zpat_app, zpat_zeros; reflexivity).
      replace (repeat 0%Z (length (Lb ++ [lk])) ++ [(-1)%Z]) with (zpat p3) by (unfold p3; rewrite zpat_app, zpat_zeros; reflexivity).
      destruct (@shape_from_spec G R A p1 MA) as (sa & -> & Va & Ba & (La & Qa & Ra & _)); [rewrite (p_lA P); apply pat_nones; cbn; auto|exact SA|]. cbn [rbind].
      destruct (@shape_from_spec G R B p1 MB) as (sb & -> & Vb & Bb & (Lb' & Qb & Rb & _)); [rewrite (p_lB P); apply pat_nones; cbn; auto|exact SB|]. cbn [rbind].
      rewrite (p_lA P) in La, Ra. unfold p1 in La, Ra. rewrite keep_nones in La, Ra. cbn [keep] in La, Ra. rewrite app_nil_r in La, Ra.
      rewrite (p_lB P) in Lb', Rb. unfold p1 in Lb', Rb. rewrite keep_nones in Lb', Rb. cbn [keep] in Lb', Rb. rewrite app_nil_r in Lb', Rb.
      rewrite (p_qA P) in Qa. unfold p1 in Qa. rewrite <- LQA, keep_nones in Qa. cbn [keep] in Qa. rewrite app_nil_r in Qa.
      rewrite (p_qB P) in Qb. unfold p1 in Qb. rewrite <- LQB, keep_nones in Qb. cbn [keep] in Qb. rewrite app_nil_r in Qb.
      assert (Z0 : b_rank sb - b_rank sa = 0) by lia.
      assert (GD : Forall2 good (skipn (b_rank sb - b_rank sa) (legs sb)) (legs sa)).
      { rewrite Z0, Lb', La. clear. cbn [skipn]. induction Lb; constructor; auto. left; auto. }
      destruct (@shape_ok G R sb sa Vb Va ltac:(lia) GD) as [EC _]. destruct (@bshape_legs G R sb sa Vb Va ltac:(lia) GD) as [LC [QC' MC]]. rewrite EC. cbn [rbind snd].
      set (c := bshape sb sa) in *. rewrite Z0 in LC, QC'. cbn [firstn skipn app] in LC, QC'. rewrite La, Lb' in LC. rewrite Qa, Qb in QC'.
      assert (LC' : legs c = Lb). { rewrite LC. clear. induction Lb; cbn; [reflexivity|]. rewrite bleg_same. f_equal. auto. }
      assert (QC'' : qlegs c = QC).
      { rewrite QC'. unfold QC. assert (E : lens QB = lens QA) by (rewrite (p_wA P); apply P). clear - E. revert QA E. induction QB as [|b q IH]; intros [|a q'] E; try discriminate; [reflexivity|].
        cbn in E |- *. injection E as E E'. rewrite bqleg_same by auto. rewrite map2_comm. f_equal. auto. }
      destruct (@shape_from_spec G R A p2 MA) as (r & -> & Vr & Br & (Lr & Qr & Rr & _)); [rewrite (p_lA P); apply pat_zeros; cbn; auto|exact SA|]. cbn [rbind].
      destruct (@shape_from_spec G R B p3 MB) as (l & -> & Vl & Bl & (Ll & Ql & Rl & _)).
      { rewrite (p_lB P). replace (Lb ++ [lk; lc]) with ((Lb ++ [lk]) ++ [lc]) by (rewrite <- app_assoc; reflexivity). apply pat_zeros; [|cbn; auto]. intros x Hx. apply in_app_or in Hx as [Hx|[<-|[]]]; auto. }
      { exact SB. }
      cbn [rbind]. rewrite (p_lA P) in Lr. unfold p2 in Lr. rewrite keep_zeros in Lr. cbn [keep] in Lr. rewrite (p_qA P) in Qr. unfold p2 in Qr. rewrite <- LQA, keep_zeros in Qr. cbn [keep] in Qr.
      replace (Lb ++ [lk; lc]) with ((Lb ++ [lk]) ++ [lc]) in * by (rewrite <- app_assoc; reflexivity). pose proof (p_lB P) as LB'. replace (Lb ++ [lk; lc]) with ((Lb ++ [lk]) ++ [lc]) in LB' by (rewrite <- app_assoc; reflexivity).
      rewrite LB' in Ll. unfold p3 in Ll. rewrite keep_zeros in Ll. cbn [keep] in Ll.
      pose proof (p_qB P) as QB'. replace (QB ++ [qk'; qc]) with ((QB ++ [qk']) ++ [qc]) in QB' by (rewrite <- app_assoc; reflexivity).
      rewrite QB' in Ql. unfold p3 in Ql. replace (length (Lb ++ [lk])) with (length (QB ++ [qk'])) in Ql by (rewrite !app_length; cbn; lia). rewrite keep_zeros in Ql. cbn [keep] in Ql.
      assert (MC' : meta_ok (with_rule c (qe G))) by exact MC.
      destruct (@shape_list_ok G R [with_rule c (qe G); r; l]) as (s & E & (VS & BS & LS & QS & _)); [discriminate|constructor; [exact MC'|constructor; [apply Vr|constructor; [apply Vl|constructor]]]|].
      exists s. split; [exact E|]. split; [exact VS|]. split; [exact BS|]. cbn [map concat] in LS, QS. change (legs (with_rule c (qe G))) with (legs c) in LS. change (qlegs (with_rule c (qe G))) with (qlegs c) in QS.
      rewrite LC', Lr, Ll in LS. rewrite QC'', Qr, Ql in QS. auto.
    Qed.

    Lemma QC_pick (b : list nat) : in_range (lens Lb) b = true -> qprod G (pick (qe G) QC b) = qop G (qprod G (pick (qe G) QA b)) (qprod G (pick (qe G) QB b)).
    Proof.
      unfold QC. pose proof (p_wA P) as H1. pose proof (p_wB P) as H2. clear P QC. revert QA QB b H1 H2. induction Lb as [|l L IH]; intros [|qa QA0] [|qb QB0] [|x b] H1 H2 H; try discriminate; [cbn; rewrite qop_e_l; reflexivity|].
      cbn [lens map] in H. apply in_range_cons in H as [H H']. cbn in H1, H2. injection H1 as H1 H1'. injection H2 as H2 H2'. cbn [map2 pick]. cbn [qprod fold_right]. fold (qprod G (pick (qe G) (map2 (map2 (qop G)) QA0 QB0) b)).
      rewrite IH by auto. assert (E : nth x (map2 (qop G) qa qb) (qe G) = qop G (nth x qa (qe G)) (nth x qb (qe G))).
      { assert (Hx : x < length qa) by congruence. assert (Hl : length qa = length qb) by congruence. clear - Hx Hl. revert qb x Hx Hl. induction qa as [|a qa IH]; intros [|b qb] x Hx Hl; try discriminate; cbn in *; [lia|]. destruct x; [reflexivity|]. apply IH; lia. }
      rewrite E. set (u := nth x qa (qe G)). set (v := nth x qb (qe G)). change (fold_right (qop G) (qe G) (pick (qe G) QA0 b)) with (qprod G (pick (qe G) QA0 b)). change (fold_right (qop G) (qe G) (pick (qe G) QB0 b)) with (qprod G (pick (qe G) QB0 b)).
      set (y := qprod G (pick (qe G) QA0 b)). set (z := qprod G (pick (qe G) QB0 b)).
      rewrite <- (qop_assoc G u v). rewrite (qop_assoc G v y z). rewrite (qop_comm G v y). rewrite <- (qop_assoc G y v z). rewrite (qop_assoc G u y). reflexivity.
    Qed.
    Lemma len_QA : length QA = length Lb. Proof. rewrite <- (lens_length QA), (p_wA P); apply lens_length. Qed.
    Lemma len_QB : length QB = length Lb. Proof. rewrite <- (lens_length QB), (p_wB P); apply lens_length. Qed.
    Lemma len_QC : length QC = length Lb. Proof. rewrite <- (lens_length QC), QC_lens; apply lens_length. Qed.
    Lemma range3 (L : list (list nat)) x y (b : list nat) r c : length b = length L -> in_range (lens (L ++ [x; y])) (b ++ [r; c]) = true <-> in_range (lens L) b = true /\ r < length x /\ c < length y.
    Proof.
      intros H. rewrite lens_app, in_range_app by (rewrite lens_length; auto). cbn. rewrite andb_true_r, !andb_true_iff, !Nat.ltb_lt. tauto.
    Qed.
    Lemma prod_allowed (out0 : t) (b : list nat) r k c : meta_ok out0 -> legs out0 = Lb ++ [lr; lc] -> qlegs out0 = QC ++ [qr; qc] -> b_rule out0 = qop G (b_rule A) (b_rule B) -> length b = length Lb ->
      allowed A (b ++ [r; k]) -> allowed B (b ++ [k; c]) -> allowed out0 (b ++ [r; c]).
    Proof.
      intros M0 L0 Q0 R0 Hb [A1 A2] [B1 B2]. pose proof (proj1 (p_vA P)) as MA. pose proof (proj1 (p_vB P)) as MB.
      rewrite <- (legs_lens MA), (p_lA P) in A1. rewrite <- (legs_lens MB), (p_lB P) in B1. apply range3 in A1 as (A1 & A3 & A4); [|exact Hb]. apply range3 in B1 as (_ & B3 & B4); [|exact Hb].
      split; [rewrite <- (legs_lens M0), L0; apply range3; auto|]. rewrite Q0, R0, <- A2, <- B2, (p_qA P), (p_qB P).
      rewrite !pick_app by (rewrite ?len_QA, ?len_QB, ?len_QC; auto). rewrite !qprod_app. rewrite QC_pick by auto. cbn. rewrite !qop_e_r.
      pose proof (@p_inv _ _ _ _ _ _ _ _ _ _ _ _ _ P k A4) as HI.
      set (xa := qprod G (pick (qe G) QA b)). set (xb := qprod G (pick (qe G) QB b)). set (r' := nth r qr (qe G)) in *. set (c' := nth c qc (qe G)) in *. set (u := nth k qk (qe G)) in *. set (v := nth k qk' (qe G)) in *.
      rewrite <- (qop_assoc G xa xb). rewrite <- (qop_assoc G xa (qop G r' u)). f_equal. rewrite (qop_assoc G xb r' c'). rewrite (qop_comm G xb r'). rewrite <- (qop_assoc G r' xb c'). rewrite <- (qop_assoc G r' u). f_equal.
      rewrite (qop_assoc G xb v c'). rewrite (qop_comm G xb v). rewrite <- (qop_assoc G v xb c'). rewrite (qop_assoc G u v). rewrite HI, qop_e_l. reflexivity.
    Qed.
    Lemma one_key (k : list nat) (g : dense R -> R) (l : list entry) : NoDup (map fst l) ->
      sumf R (fun e => if leqb k (fst e) then g (snd e) else rz) l = match assoc leqb k l with Some v => g v | None => rz end.
    Proof.
      induction l as [|[k' v] l IH]; intros H; [reflexivity|]. cbn in H. inversion H as [|? ? Hn H']; subst. rewrite sumf_cons. cbn [fst snd assoc].
      destruct (leqb k k') eqn:E.
      - apply leqb_eq in E. subst k'. rewrite leqb_refl. rewrite sumf_zero; [ring|]. intros e He. destruct (leqb k (fst e)) eqn:E; [|reflexivity]. exfalso. apply leqb_eq in E. apply Hn. rewrite E. apply in_map. exact He.
      - rewrite IH by exact H'. replace (leqb k' k) with false; [ring|]. symmetry. apply leqb_neq. apply leqb_neq in E. congruence.
    Qed.
    Lemma Sg_sum (b : list nat) r c f (la lb : list entry) n : length b = m -> keys m la -> keys m lb -> NoDup (map fst la) -> NoDup (map fst lb) ->
      (forall e, In e la -> col_of (fst e) < n) ->
      Sg (b ++ [r; c]) f la lb = sumf R (fun s => match assoc leqb (b ++ [r; s]) la, assoc leqb (b ++ [s; c]) lb with Some x, Some y => f x y | _, _ => rz end) (seq 0 n).
    Proof.
      intros Hb KA KB NA NB HN. unfold Sg.
      transitivity (sumf R (fun ea => sumf R (fun s => if leqb (b ++ [r; s]) (fst ea) then match assoc leqb (b ++ [s; c]) lb with Some y => f (snd ea) y | None => rz end else rz) (seq 0 n)) la).
      - apply sumf_ext. intros ea Ha. pose proof (KA _ Ha) as Ka. destruct (key_parts _ _ Ka) as [Ek Lk].
        destruct (leqb (batch_of (fst ea)) b && (row_of (fst ea) =? r)) eqn:E.
        + apply andb_true_iff in E as [E1 E2]. apply leqb_eq in E1. apply Nat.eqb_eq in E2. rewrite E1, E2 in Ek.
          rewrite (@sumf_single R _ _ (seq 0 n) (col_of (fst ea))); [|apply seq_NoDup|apply in_seq; split; [lia|apply HN; exact Ha]|].
          * rewrite <- Ek, leqb_refl. rewrite <- one_key by exact NB. apply sumf_ext. intros eb Hb'. pose proof (KB _ Hb') as Kb. destruct (key_parts _ _ Kb) as [Ekb Lkb].
            unfold hit. rewrite batch_app, row_app, col_app. rewrite E1, E2, leqb_refl, Nat.eqb_refl. cbn [andb].
            assert (EQ : leqb (batch_of (fst eb)) b && (col_of (fst eb) =? c) && (col_of (fst ea) =? row_of (fst eb)) = leqb (b ++ [col_of (fst ea); c]) (fst eb)).
            { apply Bool.eq_iff_eq_true. rewrite !andb_true_iff, !leqb_eq, !Nat.eqb_eq. split.
              - intros [[W1 W2] W3]. rewrite Ekb, W1, W2, W3. reflexivity.
              - intros W. rewrite <- W. rewrite batch_app, row_app, col_app. auto. }
            rewrite EQ. reflexivity.
          * intros s _ Hs. destruct (leqb (b ++ [r; s]) (fst ea)) eqn:E; [|reflexivity]. exfalso. apply leqb_eq in E. apply Hs. rewrite <- E, col_app. reflexivity.
        + transitivity (rz : R).
          * apply sumf_zero. intros eb _. destruct (hit (b ++ [r; c]) (fst ea) (fst eb)) eqn:Hh; [|reflexivity]. exfalso. apply hit_iff in Hh as (W1 & W2 & _). rewrite batch_app in W1. rewrite row_app in W2. rewrite W1, W2, leqb_refl, Nat.eqb_refl in E. discriminate.
          * symmetry. apply sumf_zero. intros s _. destruct (leqb (b ++ [r; s]) (fst ea)) eqn:W; [|reflexivity]. exfalso. apply leqb_eq in W. rewrite <- W, batch_app, row_app, leqb_refl, Nat.eqb_refl in E. discriminate.
      - rewrite sumf_swap. apply sumf_ext. intros s _. rewrite (@one_key (b ++ [r; s]) (fun x => match assoc leqb (b ++ [s; c]) lb with Some y => f x y | None => rz end) la NA). reflexivity.
    Qed.
    Lemma assoc_perm k (l l' : list entry) : Permutation l l' -> NoDup (map fst l) -> assoc leqb k l = assoc leqb k l'.
    Proof.
      intros HP HN. assert (HN' : NoDup (map fst l')) by (eapply Permutation_NoDup; [apply Permutation_map; exact HP|exact HN]).
      destruct (assoc leqb k l) as [v|] eqn:E.
      - apply assoc_nodup in E; [|exact HN]. symmetry. apply assoc_nodup; [exact HN'|]. apply (Permutation_in _ HP). exact E.
      - destruct (assoc leqb k l') as [v'|] eqn:E'; [|reflexivity]. apply assoc_nodup in E'; [|exact HN']. apply (Permutation_in _ (Permutation_sym HP)) in E'. apply assoc_nodup in E'; [congruence|exact HN].
    Qed.

    Lemma keys_of (T : t) : valid T -> b_rank T = m + 2 -> keys m (b_blocks T).
    Proof. intros (M & HB & _) HR [k v] He. destruct (HB k v He) as [[H _] _]. apply in_range_length in H. cbn. rewrite H, (proj1 M). exact HR. Qed.
    Lemma batched_entries : nonempty A -> nonempty B -> exists C, bmm_batched A B = Ok C /\ valid C /\ b_rule C = qop G (b_rule A) (b_rule B) /\ legs C = Lb ++ [lr; lc] /\ qlegs C = QC ++ [qr; qc] /\
      forall (b ob : list nat) r c i j, in_range (lens Lb) b = true -> r < length lr -> c < length lc -> in_range (pick 0 Lb b) ob = true -> i < nth r lr 0 -> j < nth c lc 0 ->
        bentry C (b ++ [r; c]) (ob ++ [i; j]) =
        sumf R (fun s => sumf R (fun k => rmul (bentry A (b ++ [r; s]) (ob ++ [i; k])) (bentry B (b ++ [s; c]) (ob ++ [k; j]))) (seq 0 (nth s lk 0))) (seq 0 (length lk)).
    Proof.
      intros NA NB. pose proof (p_vA P) as VA. pose proof (p_vB P) as VB. pose proof (proj1 VA) as MA. pose proof (proj1 VB) as MB. pose proof (p_m P) as Hm.
      assert (OK : bmm_ok A B).
      { unfold bmm_ok. rewrite (p_rA P), (p_rB P), (p_lA P), (p_lB P), (p_qA P), (p_qB P). assert (LA := len_QA). assert (LB := len_QB). rewrite !part_batch by lia.
        rewrite !(@part_1 _ m), !(@part_2 _ m) by lia. split; [reflexivity|]. split; [lia|]. split; [reflexivity|]. split; [reflexivity|]. apply P. }
      unfold bmm_batched. rewrite (proj1 (check_spec MA MB) OK). cbn [rbind]. destruct (shape_good NA NB) as (s & -> & VS & BS & LS & QS). cbn [rbind].
      set (out0 := with_rule s (qop G (b_rule A) (b_rule B))). assert (M0 : meta_ok out0) by exact (proj1 VS).
      assert (V0 : valid out0) by (split; [exact M0|]; split; [intros k x Hx; unfold out0 in Hx; cbn in Hx; rewrite BS in Hx; destruct Hx|unfold out0; cbn; rewrite BS; constructor]).
      assert (KA : keys m (b_blocks A)) by (apply keys_of; [exact VA|apply P]). assert (KB0 : keys m (b_blocks B)) by (apply keys_of; [exact VB|apply P]).
      pose proof (sort_col_perm (b_blocks B)) as PB. set (lb := fm_sort by_column (b_blocks B)) in *.
      assert (KB : keys m lb) by (intros e He; apply KB0, (Permutation_in _ (Permutation_sym PB)); exact He).
      assert (NDA : NoDup (map fst (b_blocks A))) by (apply sorted_nodup; apply VA). assert (NDB : NoDup (map fst (b_blocks B))) by (apply sorted_nodup; apply VB).
      assert (NDL : NoDup (map fst lb)) by (eapply Permutation_NoDup; [apply Permutation_map; exact PB|exact NDB]).
      assert (EA : forall e, In e (b_blocks A) -> allowed A (fst e) /\ dsh (snd e) = pick 0 Lb (batch_of (fst e)) ++ [nth (row_of (fst e)) lr 0; nth (col_of (fst e)) lk 0]).
      { intros [k v] He. destruct (proj1 (proj2 VA) k v He) as [HA HD]. split; [exact HA|]. destruct (@key_parts m k (KA _ He)) as [Ek Lk]. cbn [fst snd]. rewrite HD, (p_lA P). rewrite Ek at 1. rewrite pick_app by lia. reflexivity. }
      assert (EB : forall e, In e lb -> allowed B (fst e) /\ dsh (snd e) = pick 0 Lb (batch_of (fst e)) ++ [nth (row_of (fst e)) lk 0; nth (col_of (fst e)) lc 0]).
      { intros [k v] He. pose proof (KB _ He) as Hk. apply (Permutation_in _ (Permutation_sym PB)) in He. destruct (proj1 (proj2 VB) k v He) as [HA HD]. split; [exact HA|]. destruct (@key_parts m k Hk) as [Ek Lk]. cbn [fst snd]. rewrite HD, (p_lB P). rewrite Ek at 1. rewrite pick_app by lia. reflexivity. }
      assert (LS0 : legs out0 = Lb ++ [lr; lc]) by exact LS. assert (QS0 : qlegs out0 = QC ++ [qr; qc]) by exact QS.
      destruct (@rows_spec G R Lb lr lk lc out0 (b_blocks A) lb LS0) with (fuel := S (length (b_blocks A))) (la := b_blocks A) (lb := lb) (out := out0) as (C & EC & VC & (S1 & S2 & S3 & S4 & S5) & HC).
      - rewrite Hm; exact KA.
      - rewrite Hm; exact KB.
      - intros e He. apply EA, He.
      - intros e He. apply EB, He.
      - intros ea eb ind Ha Hb Li Hh. apply hit_iff in Hh as (H1 & H2 & H3 & H4 & H5). rewrite Hm in Li. destruct (key_parts _ _ Li) as [Ei Lbi]. rewrite Ei.
        destruct (key_parts _ _ (KA _ Ha)) as [Ea La]. destruct (key_parts _ _ (KB _ Hb)) as [Eb Lb0]. destruct (EA _ Ha) as [AA _]. destruct (EB _ Hb) as [AB _].
        apply (@prod_allowed out0 (batch_of ind) (row_of ind) (col_of (fst ea)) (col_of ind)); auto; [lia| |].
        + rewrite Ea in AA. rewrite H1, H2 in AA. exact AA.
        + rewrite Eb in AB. rewrite H3, H4, <- H5 in AB. exact AB.
      - lia.
      - apply incl_refl.
      - apply incl_refl.
      - apply VA.
      - apply (@sort_csorted _ m); [apply VB|exact KB0].
      - exact V0.
      - repeat split.
      - exists C. split; [exact EC|]. split; [exact VC|]. split; [rewrite <- S1; reflexivity|]. split; [unfold legs; rewrite <- S3, <- S4; exact LS0|]. split; [unfold qlegs; rewrite <- S3, <- S5; exact QS0|].
        intros b ob r c i j Rb Rr Rc Ro Ri Rj. assert (Lbm : length b = m) by (apply in_range_length in Rb; rewrite lens_length in Rb; lia).
        destruct (HC (b ++ [r; c])) as [U1 U2]; [rewrite app_length; cbn; lia|].
        assert (EV : bentry C (b ++ [r; c]) (ob ++ [i; j]) = Sg (b ++ [r; c]) (pmul ob i j) (b_blocks A) lb).
        { unfold bentry. destruct (has (b ++ [r; c]) (b_blocks A) lb) eqn:EH.
          - destruct (U2 eq_refl) as (v & -> & Hv). apply Hv; rewrite ?batch_app, ?row_app, ?col_app; auto.
          - rewrite (U1 eq_refl). unfold out0. cbn [with_rule b_blocks]. rewrite BS. cbn [assoc]. symmetry. apply Sg_none. exact EH. }
        rewrite EV. rewrite (@Sg_sum b r c (pmul ob i j) (b_blocks A) lb (length lk)); auto.
        2:{ intros e He. destruct (EA _ He) as [[HR _] _]. destruct (key_parts _ _ (KA _ He)) as [Ea La]. rewrite <- (legs_lens MA), (p_lA P), Ea in HR. apply range3 in HR; [tauto|lia]. }
        apply sumf_ext. intros k Hk. rewrite <- (@assoc_perm (b ++ [k; c]) _ _ PB NDB). unfold bentry.
        destruct (assoc leqb (b ++ [r; k]) (b_blocks A)) as [x|] eqn:EX.
        + assert (Hx : In (b ++ [r; k], x) (b_blocks A)) by (apply (@assoc_nodup _ (b_blocks A)); auto). destruct (EA _ Hx) as [_ Dx]. cbn [fst snd] in Dx. rewrite row_app, col_app, batch_app in Dx.
          destruct (assoc leqb (b ++ [k; c]) (b_blocks B)) as [y|].
          * unfold pmul. rewrite Dx, col_app. reflexivity.
          * symmetry. apply sumf_zero. intros; ring.
        + symmetry. apply sumf_zero. intros; ring.
    Qed.

    Lemma sum_sections (f : nat -> R) (l : list nat) : sumf R f (seq 0 (sum_list l)) = sumf R (fun s => sumf R (fun o => f (sum_list (firstn s l) + o)) (seq 0 (nth s l 0))) (seq 0 (length l)).
    Proof.
      revert f. induction l as [|x l IH]; intros f; [reflexivity|]. rewrite sum_list_cons. cbn [length seq]. rewrite sumf_cons. cbn [nth firstn]. rewrite seq_app, sumf_app. f_equal.
      rewrite <- seq_shift, sumf_map. cbn [plus]. rewrite <- (Nat.add_0_r x) at 1. 
      assert (SH : forall n a, seq (x + a) n = map (Nat.add x) (seq a n)).
      { clear. induction n as [|n IH]; intros a; [reflexivity|]. cbn. f_equal. rewrite <- IH. f_equal. lia. }
      rewrite SH, sumf_map, IH. apply sumf_ext. intros s _. cbn [nth firstn]. apply sumf_ext. intros o _. rewrite sum_list_cons. f_equal. lia.
    Qed.
    Lemma snoc2_nth (e : list nat) x y n : length e = n -> firstn (n + 1) (e ++ [x; y]) = e ++ [x] /\ firstn n (e ++ [x; y]) = e /\ nth (n + 1) (e ++ [x; y]) 0 = y.
    Proof.
      intros <-. split; [|split].
      - replace (e ++ [x; y]) with ((e ++ [x]) ++ [y]) by (rewrite <- app_assoc; reflexivity). replace (length e + 1) with (length (e ++ [x])) by (rewrite app_length; reflexivity). apply firstn_mid.
      - apply firstn_mid.
      - rewrite app_nth2 by lia. replace (length e + 1 - length e) with 1 by lia. reflexivity.
    Qed.
    Lemma batched_dense : nonempty A -> nonempty B -> exists C, bmm_batched A B = Ok C /\ valid C /\ bmm_meta A B C /\ legs C = Lb ++ [lr; lc] /\
      forall DA DB, dense_form A DA -> dense_form B DB -> dense_form C (d_bmm DA DB).
    Proof.
      intros NA NB. destruct (batched_entries NA NB) as (C & EC & VC & RC & LC & QC' & HC). exists C. split; [exact EC|]. split; [exact VC|]. pose proof (p_m P) as Hm.
      assert (LA := len_QA). assert (LB := len_QB).
      split.
      { unfold bmm_meta. rewrite (p_rA P), (p_lA P), (p_lB P), (p_qA P), (p_qB P). rewrite (@part_rows _ m), !(@part_batch _ m) by lia. rewrite !(@part_1 _ m), !(@part_2 _ m) by lia.
        split; [exact RC|]. split; [rewrite LC, <- app_assoc; reflexivity|exact QC']. }
      split; [exact LC|]. intros DA DB [SA HA] [SB HB]. pose proof (proj1 (p_vA P)) as MA. pose proof (proj1 (p_vB P)) as MB.
      rewrite (p_lA P), map_app in SA. rewrite (p_lB P), map_app in SB. cbn [map] in SA, SB.
      assert (ELA : length (dsh DA) = m + 2) by (rewrite SA, app_length, map_length; cbn; lia).
      assert (LT : length (map sum_list Lb) = m) by (rewrite map_length; exact Hm).
      destruct (@snoc2_nth (map sum_list Lb) (sum_list lr) (sum_list lk) m LT) as (SA1 & SA2 & SA3). destruct (@snoc2_nth (map sum_list Lb) (sum_list lk) (sum_list lc) m LT) as (SB1 & SB2 & SB3).
      split.
      - cbn [dsh d_bmm]. rewrite ELA. replace (m + 2 - 1) with (m + 1) by lia. rewrite SA, SB, SA1, SB3, LC, map_app, <- app_assoc. reflexivity.
      - intros bb oo Hbb Hoo. rewrite LC in Hoo |- *. rewrite <- (legs_lens (proj1 VC)), LC in Hbb.
        assert (Lbb : length bb = m + 2) by (apply in_range_length in Hbb; rewrite lens_length, app_length in Hbb; cbn in Hbb; lia).
        destruct (key_parts _ _ Lbb) as [Eb Lb0]. set (b := batch_of bb) in *. set (r := row_of bb) in *. set (c := col_of bb) in *. clearbody b r c. subst bb.
        apply range3 in Hbb as (Rb & Rr & Rc); [|lia]. rewrite pick_app in Hoo by lia. cbn [pick] in Hoo.
        assert (Loo : length oo = m + 2) by (apply in_range_length in Hoo; rewrite Hoo, app_length, pick_length by lia; cbn; lia).
        destruct (key_parts _ _ Loo) as [Eo Lo]. set (ob := batch_of oo) in *. set (i := row_of oo) in *. set (j := col_of oo) in *. clearbody ob i j. subst oo.
        rewrite in_range_app in Hoo by (rewrite pick_length by lia; lia). cbn in Hoo. rewrite andb_true_r, !andb_true_iff, !Nat.ltb_lt in Hoo. destruct Hoo as (Ro & Ri & Rj).
        rewrite HC by auto. rewrite place_app by lia. cbn [place]. cbn [dv d_bmm]. rewrite ELA. replace (m + 2 - 1) with (m + 1) by lia. replace (m + 2 - 2) with m by lia.
        set (e := place Lb b ob). assert (Le : length e = m) by (unfold e; destruct (@place_spec Lb b ob Rb Ro) as [HP _]; apply in_range_length in HP; unfold tots in HP; rewrite map_length in HP; lia).
        destruct (@snoc2_nth e (sum_list (firstn r lr) + i) (sum_list (firstn c lc) + j) m Le) as (-> & -> & ->). rewrite SA, SA3. rewrite sum_sections.
        apply sumf_ext. intros s Hs. apply in_seq in Hs. apply sumf_ext. intros k Hk. apply in_seq in Hk.
        rewrite <- HA, <- HB.
        + rewrite (p_lA P), (p_lB P). rewrite !place_app by lia. cbn [place]. unfold e. rewrite <- app_assoc. reflexivity.
        + rewrite <- (legs_lens MB), (p_lB P). apply range3; [lia|]. split; [exact Rb|]. lia.
        + rewrite (p_lB P), pick_app by lia. cbn [pick]. rewrite in_range_app by (rewrite pick_length by lia; lia). rewrite Ro. cbn. rewrite !andb_true_iff, !Nat.ltb_lt. split; [lia|split; [lia|reflexivity]].
        + rewrite <- (legs_lens MA), (p_lA P). apply range3; [lia|]. split; [exact Rb|]. lia.
        + rewrite (p_lA P), pick_app by lia. cbn [pick]. rewrite in_range_app by (rewrite pick_length by lia; lia). rewrite Ro. cbn. rewrite !andb_true_iff, !Nat.ltb_lt. split; [lia|split; [lia|reflexivity]].
    Qed.
  End Main.
End T.

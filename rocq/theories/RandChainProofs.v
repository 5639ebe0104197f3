(** Proofs about random chains of block tensors. *)
From Verif Require Import Base Quantity QuantityProofs FlatMap SpecFlatMap FlatMapProofs Ring Index SpecIndex Dense IndexProofs BTensor SpecBTensor LegsProofs
  BTensorProofs BTensorThms BTensorThms2 TensordotThms Tensordot BTensorArith Reshape SpecReshape View SpecView SpecChain ChainProofs ChainInst SpecEdges EdgesBlock Bcast SpecBcast BcastProofs BcastThms BcastMain
  SpecViewKeep ViewKeep Rand SpecRand RandProofs RandChain SpecRandChain.
From Coq Require Import Lia.
Set Implicit Arguments.

Section P.
  Variable G : abgroup.
  Variable R : ring.
  Notation bt := (btensor G R).
  Notation leg := (list nat * list G)%type.

  (** * Sorting and runs *)
  Lemma insert_In (a : G) l x : In x (q_insert a l) <-> x = a \/ In x l.
  Proof.
    induction l as [|b l IH]; cbn; [intuition|]. destruct (qltb G b a); cbn; [rewrite IH|]; intuition.
  Qed.
  Lemma insert_length (a : G) l : length (q_insert a l) = S (length l).
  Proof. induction l as [|b l IH]; cbn; auto. destruct (qltb G b a); cbn; congruence. Qed.
  Lemma sort_In (l : list G) x : In x (q_sort l) <-> In x l.
  Proof. induction l as [|a l IH]; cbn; [tauto|]. rewrite insert_In. fold (q_sort l). rewrite IH. intuition. Qed.
  Lemma sort_length (l : list G) : length (q_sort l) = length l.
  Proof. induction l as [|a l IH]; cbn; auto. rewrite insert_length. fold (q_sort l). congruence. Qed.
  Lemma runs_sum (l : list G) : sum_list (map fst (runs l)) = length l.
  Proof.
    induction l as [|a l IH]; cbn [runs]; auto. destruct (runs l) as [|[n b] t]; [cbn in *; lia|].
    destruct (qeqb G a b); cbn in *; lia.
  Qed.
  Lemma runs_In (l : list G) x : In x l -> In x (map snd (runs l)).
  Proof.
    induction l as [|a l IH]; [intros []|]. intros H. cbn [runs]. destruct (runs l) as [|[n b] t] eqn:E.
    - destruct H as [->|H]; [left; reflexivity|]. destruct (IH H).
    - destruct (qeqb G a b) eqn:Eq.
      + apply qeqb_spec in Eq. subst. destruct H as [->|H]; [left; reflexivity|]. exact (IH H).
      + destruct H as [->|H]; [left; reflexivity|right; exact (IH H)].
  Qed.
  Lemma runs_const (e : G) l : l <> [] -> (forall x, In x l -> x = e) -> runs l = [(length l, e)].
  Proof.
    induction l as [|a l IH]; [congruence|]. intros _ H. cbn [runs]. rewrite (H a (or_introl eq_refl)). destruct l as [|b l]; [reflexivity|].
    rewrite IH; [|congruence|intros x Hx; apply H; right; exact Hx].
    rewrite (proj2 (qeqb_spec G e e) eq_refl). reflexivity.
  Qed.
  Lemma index_of (l : list G) x : In x l -> exists r, r < length l /\ nth r l (qe G) = x.
  Proof. intros H. apply (In_nth _ _ (qe G)) in H. exact H. Qed.

  (** The bond with the given quantities. *)
  Definition bond_of (accum : list G) : leg := (map fst (runs (q_sort accum)), map snd (runs (q_sort accum))).
  Lemma right_ok (accum : list G) r : accum <> [] ->
    exists S, @make_right_side G R accum r = Ok S /\ shape_is S [fst (bond_of accum)] [snd (bond_of accum)] r.
  Proof.
    intros H. unfold make_right_side. destruct accum as [|a l]; [congruence|]. set (ac := a :: l) in *. set (rs := runs (q_sort ac)).
    destruct (@from_legs G R r 1 [map fst rs] [map snd rs] eq_refl) as (HM & HL & HQ & HV); [cbn; rewrite !map_length; reflexivity|].
    cbn [lens map concat] in HM, HL, HQ, HV. rewrite map_length, !app_nil_r in HM, HL, HQ, HV.
    eexists. split; [apply valid_make; exact HV|]. split; [exact HV|]. split; [reflexivity|]. split; [exact HL|]. split; [exact HQ|reflexivity].
  Qed.
  Lemma bond_sum accum : sum_list (fst (bond_of accum)) = length accum.
  Proof. unfold bond_of. cbn [fst]. rewrite runs_sum. apply sort_length. Qed.
  Lemma runs_pos (l : list G) : Forall (lt 0) (map fst (runs l)).
  Proof.
    induction l as [|a l IH]; cbn; [constructor|]. destruct (runs l) as [|[n b] t]; [repeat constructor|]. cbn in IH. inversion IH; subst.
    destruct (qeqb G a b); cbn; repeat constructor; auto with arith.
  Qed.
  Lemma bond_sections accum : Forall (lt 0) (fst (bond_of accum)).
  Proof. apply runs_pos. Qed.
  Lemma bond_lens accum : length (snd (bond_of accum)) = length (fst (bond_of accum)).
  Proof. unfold bond_of. cbn. rewrite !map_length. reflexivity. Qed.
  Lemma bond_index accum x : In x accum -> exists r, r < length (fst (bond_of accum)) /\ nth r (snd (bond_of accum)) (qe G) = x.
  Proof. intros H. rewrite <- bond_lens. apply index_of. apply runs_In, sort_In, H. Qed.
  Lemma bond_const accum e : accum <> [] -> (forall x, In x accum -> x = e) -> bond_of accum = ([length accum], [e]).
  Proof.
    intros H1 H2. unfold bond_of. rewrite (@runs_const e (q_sort accum)).
    - rewrite sort_length. reflexivity.
    - intros E. apply H1. apply length_zero_iff_nil. rewrite <- sort_length, E. reflexivity.
    - intros x Hx. apply H2, sort_In, Hx.
  Qed.

  (** * Accumulated quantities *)
  Lemma accumulate_ok i cv (strings : list (list nat)) (accum : list G) : length accum = length strings ->
    (forall s, In s strings -> i < length s /\ nth i s 0 < length cv) ->
    accumulate i cv strings accum = Ok (map2 (fun a s => qop G a (qinv G (nth (nth i s 0) cv (qe G)))) accum strings).
  Proof.
    revert accum. unfold accumulate. induction strings as [|s st IH]; intros [|a ac] HL H; try discriminate; [reflexivity|].
    cbn [combine rmapM map2]. destruct (H s (or_introl eq_refl)) as [H1 H2]. rewrite (rnth_Ok 0 s H1). cbn [rbind]. rewrite (rnth_Ok (qe G) cv H2). cbn [rbind].
    rewrite IH; [reflexivity|cbn in HL; lia|intros s' Hs; apply H; right; exact Hs].
  Qed.

  (** * Normalization *)
  Variable div : R -> R -> R.
  Variable sqrt : R -> R.
  Lemma bleg_one n (L : list (list nat)) : length L = n -> map2 bleg L (repeat [1] n) = L.
  Proof.
    intros <-. induction L as [|l L IH]; cbn; auto. rewrite IH. f_equal. unfold bleg. destruct (leqb l [1]) eqn:E; auto. apply leqb_eq in E. auto.
  Qed.
  Lemma bqleg_e (l : list G) : bqleg l [qe G] = l.
  Proof.
    apply nth_ext with (d := qe G) (d' := qe G); [unfold bqleg; rewrite map_length, seq_length; destruct (Nat.eqb_spec (length l) 1); cbn; lia|].
    intros i Hi. assert (Hi' : i < length l) by (unfold bqleg in Hi; rewrite map_length, seq_length in Hi; destruct (Nat.eqb_spec (length l) 1); cbn in Hi; lia).
    unfold bqleg. erewrite nth_indep; [|exact Hi]. rewrite (map_nth (fun i => qop G (nth (sel l i) l (qe G)) (nth (sel [qe G] i) [qe G] (qe G))) _ 0).
    rewrite seq_nth by (destruct (Nat.eqb_spec (length l) 1); cbn; lia). cbn [Nat.add]. unfold sel at 2. cbn [length Nat.eqb nth]. rewrite qop_e_r. f_equal.
    unfold sel. destruct (Nat.eqb_spec (length l) 1); lia.
  Qed.
  Lemma bqleg_one n (Q : list (list G)) : length Q = n -> map2 bqleg Q (repeat [qe G] n) = Q.
  Proof. intros <-. induction Q as [|l Q IH]; cbn [repeat length map2]; auto. rewrite IH, bqleg_e. reflexivity. Qed.
  Lemma bsel_self (L : list (list nat)) b : in_range (lens L) b = true -> bsel L b = b.
  Proof.
    intros H. unfold bsel. pose proof (in_range_length _ _ H) as HL. rewrite lens_length in HL. rewrite HL, Nat.sub_diag. cbn [skipn].
    clear HL. revert b H. induction L as [|l L IH]; intros [|x b] H; try discriminate; [reflexivity|]. cbn [lens map in_range] in H. apply andb_prop in H as [H1 H2].
    cbn [map2]. rewrite IH by exact H2. f_equal. unfold sel. apply Nat.ltb_lt in H1. destruct (Nat.eqb_spec (length l) 1); lia.
  Qed.
  Lemma pad_full n (L : list (list nat)) : length L = n -> pad n L = L.
  Proof. intros <-. unfold pad. rewrite Nat.sub_diag. reflexivity. Qed.
  Lemma qpad_full n (Q : list (list G)) : length Q = n -> qpad n Q = Q.
  Proof. intros <-. unfold qpad. rewrite Nat.sub_diag. reflexivity. Qed.
  Lemma bc_same (A B : bt) : meta_ok A -> meta_ok B -> legs A = legs B -> bc_ok A B.
  Proof.
    intros HA HB HL. pose proof (legs_length HA) as LA. pose proof (legs_length HB) as LB. rewrite <- HL in LB.
    split; [intros d _; left; rewrite HL; reflexivity|]. replace (b_rank B <=? b_rank A) with true by (symmetry; apply Nat.leb_le; lia).
    intros (d & _ & H). rewrite HL in H. cbv zeta in H. destruct H as [[H1 [H2|(m & Hm & H2)]]|[H1 H2]]; rewrite H1 in H2; congruence.
  Qed.
  Lemma bc_scalar (A B : bt) : meta_ok A -> b_rank B = 0 -> legs B = [] -> bc_ok A B.
  Proof.
    intros HA HB HL. unfold bc_ok. rewrite HB, HL, Nat.max_0_r. cbn [Nat.leb]. split.
    - intros d Hd. right. right. unfold pad at 1. cbn [length]. rewrite Nat.sub_0_r, app_nil_r.
      clear - Hd. revert d Hd. induction (b_rank A) as [|n IH]; intros [|d] Hd; cbn; try lia; auto. apply IH. lia.
    - intros (d & Hd & _). cbn [length] in Hd. lia.
  Qed.
  Lemma normalize_ok (T : bt) : valid T -> exists T', normalize div sqrt T = Ok T' /\ valid T' /\ b_rule T' = b_rule T /\
    legs T' = legs T /\ qlegs T' = qlegs T /\ forall b, in_range (b_sbd T) b = true -> (stores T' b <-> stores T b).
  Proof.
    intros HV. pose proof HV as (HM & _). destruct (to_dense_total HV) as (D & _ & HD & _). destruct (conj_spec HV HD) as (VC & _).
    unfold normalize. destruct (op_thm rmul HV VC) as (C & EC & HC); [apply bc_same; [exact HM|apply VC|reflexivity]|].
    unfold b_mul. rewrite EC. cbn [rbind]. destruct HC as (CV & CR & _). destruct (to_dense_total CV) as (DC & _ & HDC & _).
    assert (CR' : b_rule C = qe G) by (rewrite CR; cbn; apply qop_inv_r).
    set (B := b_sqrt sqrt (bt_sum C)). assert (VB : valid B).
    { apply map_blocks_valid; [reflexivity|]. apply (sum_spec CV HDC). exact CR'. }
    assert (RB : b_rank B = 0) by reflexivity. assert (LB : legs B = []) by reflexivity. assert (QB : qlegs B = []) by reflexivity.
    assert (HB : bc_ok T B) by (apply bc_scalar; auto).
    unfold b_div_. rewrite (inplace_thm div HV VB HB) by lia. destruct (op_thm div HV VB HB) as (T' & E & H). exists T'. split; [exact E|].
    destruct H as (V' & R' & L' & Q' & S' & _). rewrite RB, Nat.max_0_r, LB, QB in *.
    rewrite (@pad_full (b_rank T) (legs T)) in L' by (apply legs_length, HM). rewrite (@qpad_full (b_rank T) (qlegs T)) in Q' by (apply qlegs_length, HM).
    unfold pad in L'. unfold qpad in Q'. cbn [length] in L', Q'. rewrite Nat.sub_0_r, app_nil_r in L', Q'.
    rewrite bleg_one in L' by (apply legs_length, HM). rewrite bqleg_one in Q' by (apply qlegs_length, HM).
    split; [exact V'|]. split; [rewrite R'; replace (b_rule B) with (qe G) by (symmetry; exact CR'); apply qop_e_r|]. split; [exact L'|]. split; [exact Q'|].
    intros b Hb. rewrite S'.
    - rewrite bsel_self by (rewrite (legs_lens HM); exact Hb). split; [tauto|]. intros H. split; [exact H|].
      replace (bsel [] b) with (@nil nat) by reflexivity. eexists. cbn. reflexivity.
    - rewrite <- (legs_lens (proj1 V')), L', (legs_lens HM). exact Hb.
  Qed.

  (** * One site *)
  Lemma phys_legs (P : bt) : phys_ok P -> legs P = [b_ss P] /\ qlegs P = [b_cv P] /\ length (b_cv P) = length (b_ss P) /\ 0 < length (b_ss P).
  Proof.
    intros ((M1 & M2 & M3) & HR & HN). rewrite HR in M1. unfold nonempty, legs, qlegs in *. destruct (b_sbd P) as [|n [|m l]]; try discriminate. cbn [sum_list fold_right] in M2, M3.
    cbn [unpack] in *. rewrite Nat.add_0_r in M2, M3. rewrite M2 in HN. rewrite M3 at 2. rewrite M2 at 1. rewrite !firstn_all in *.
    split; [reflexivity|]. split; [reflexivity|]. split; [congruence|]. specialize (HN _ (or_introl eq_refl)). destruct (b_ss P); cbn in *; lia.
  Qed.
  Definition site_rule (c : G) (i : nat) : G := if i =? 0 then c else qe G.
  Definition next_accum i cv (strings : list (list nat)) (accum : list G) : list G :=
    map2 (fun a s => qop G a (qinv G (nth (nth i s 0) cv (qe G)))) accum strings.
  Definition is_left (S : bt) (k : leg) : Prop := shape_is S [fst (bdual G k)] [snd (bdual G k)] (qe G).

  Variable rnd : nat -> list nat -> list nat -> dense R.
  Hypothesis Hrnd : forall i k sh, dsh (rnd i k sh) = sh.

  (** A site is a tensor of drawn blocks, divided by its norm. *)
  Definition drawn (T : bt) : Prop := exists i t, valid t /\ legs T = legs t /\ normalize div sqrt t = Ok T /\
    forall b x, assoc leqb b (b_blocks t) = Some x -> x = rnd i b (pick 0 (legs t) b).
  Lemma site_ok c strings out accum left k i (P : bt) : is_left left k -> length (snd k) = length (fst k) -> 0 < length (fst k) -> phys_ok P ->
    length accum = length strings -> strings <> [] -> (forall s, In s strings -> i < length s /\ nth i s 0 < length (b_cv P)) ->
    let accum' := next_accum i (b_cv P) strings accum in
    exists T left', chain_site div sqrt rnd c strings (out, accum, left) (i, P) = Ok (out ++ [T], accum', left') /\ is_left left' (bond_of accum') /\
      valid T /\ blegs T = [bdual G k; nth 0 (blegs P) ([], []); bond_of accum'] /\ b_rule T = qop G (b_rule P) (site_rule c i) /\
      (forall l o r, l < length (fst k) -> o < length (b_cv P) -> r < length (fst (bond_of accum')) ->
        qop G (nth o (b_cv P) (qe G)) (nth r (snd (bond_of accum')) (qe G)) = qop G (nth l (snd k) (qe G)) (b_rule T) -> stores T [l; o; r]) /\ drawn T.
  Proof.
    intros HLf HkL Hk0 HP HA HS Hst accum'. destruct (phys_legs HP) as (LP & QP & LPQ & LP0). pose proof HP as (MP & _).
    assert (LA : length accum' = length strings) by (unfold accum', next_accum; rewrite map2_length; auto).
    assert (NA : accum' <> []) by (intros E; rewrite E in LA; destruct strings; [congruence|discriminate]).
    unfold chain_site. rewrite accumulate_ok by auto. fold (next_accum i (b_cv P) strings accum). fold accum'. cbn [rbind]. fold (site_rule c i).
    destruct (right_ok (site_rule c i) NA) as (RS & ER & HR). rewrite ER. cbn [rbind].
    destruct (@shape_list_ok G R [left; P; RS]) as (sh & Es & Hs); [congruence|apply Forall_cons; [apply HLf|apply Forall_cons; [exact MP|apply Forall_cons; [apply HR|apply Forall_nil]]]|].
    rewrite Es. cbn [rbind]. destruct HLf as (lv & lb & ll & lq & lr). pose proof HR as (rv & rb & rl & rq & rr). cbn [map concat] in Hs. rewrite ll, lq, lr, rl, rq, rr, LP, QP in Hs.
    cbn [app qprod fold_right] in Hs. rewrite qop_e_l, qop_e_r in Hs. destruct Hs as (sv & sb & sl & sq & sr).
    pose proof (legs_lens (proj1 sv)) as SL. rewrite sl in SL. cbn [lens map] in SL.
    assert (B0 : 0 < length (fst (bond_of accum'))).
    { pose proof (bond_sum accum') as B. destruct (fst (bond_of accum')); [|cbn; lia]. cbn in B. destruct accum'; [congruence|discriminate]. }
    unfold rand_like. destruct (@full_exact G R sh (rnd i) (proj1 sv)) as (t & Et & (m1 & m2 & m3 & m4 & m5) & tv & ta).
    { intros n Hn. rewrite <- SL in Hn. cbn [bdual fst] in Hn. destruct Hn as [<-|[<-|[<-|[]]]]; assumption. }
    { apply Hrnd. }
    rewrite Et. cbn [rbind]. destruct (normalize_ok tv) as (T & ET & TV & TR & TL & TQ & TS). rewrite ET. cbn [rbind].
    assert (TL' : legs T = [fst (bdual G k); b_ss P; fst (bond_of accum')]) by (rewrite TL; unfold legs in *; rewrite <- m3, <- m4; exact sl).
    assert (TQ' : qlegs T = [snd (bdual G k); b_cv P; snd (bond_of accum')]) by (rewrite TQ; unfold qlegs in *; rewrite <- m3, <- m5; exact sq).
    assert (TR' : b_rule T = qop G (b_rule P) (site_rule c i)) by (rewrite TR; congruence).
    exists T.
    assert (HR' : exists RS', (if i =? 0 then set_selection_rule_ RS (qe G) else Ok RS) = Ok RS' /\ shape_is RS' [fst (bond_of accum')] [snd (bond_of accum')] (qe G)).
    { unfold site_rule in HR. destruct (i =? 0); [|eexists; split; [reflexivity|exact HR]]. exists (with_rule RS (qe G)). split; [|apply (rule_shape _ HR)].
      unfold set_selection_rule_, is_empty. rewrite rb. reflexivity. }
    destruct HR' as (RS' & -> & HR'). cbn [rbind]. exists (inverse_cvals RS'). split; [reflexivity|]. split.
    { pose proof (inverse_shape HR') as H. rewrite inv_e in H. exact H. }
    split; [exact TV|]. split; [unfold blegs; rewrite TL', TQ', LP, QP; reflexivity|]. split; [exact TR'|]. split.
    2: { exists i, t. split; [exact tv|]. split; [exact TL|]. split; [exact ET|]. intros b x Hx. apply ta in Hx as (_ & ->). f_equal. unfold legs. rewrite m3, m4. reflexivity. }
    intros l o r Hl Ho Hr HQ. rewrite LPQ in Ho.
    assert (IR : in_range (b_sbd sh) [l; o; r] = true).
    { rewrite <- SL. cbn [in_range bdual fst]. apply Nat.ltb_lt in Hl, Ho, Hr. rewrite Hl, Ho, Hr. reflexivity. }
    apply TS; [rewrite <- m3; exact IR|]. eexists. apply ta. split; [|reflexivity]. split; [exact IR|]. rewrite sq. cbn [pick qprod fold_right bdual snd].
    rewrite qop_e_r, HQ, sr, <- TR'. rewrite (nth_indep (map _ _) (qe G) (qinv G (qe G))) by (rewrite map_length; lia). rewrite map_nth, qop_assoc, qop_inv_l. apply qop_e_l.
  Qed.

  (** * All sites *)
  Notation fit := (mps_fit (@blegs G R) (bdual G)).
  Notation same_leg := (fun T P : bt => nth 1 (blegs T) ([], []) = nth 0 (blegs P) ([], [])).
  Definition total_accum (phys : list bt) i (strings : list (list nat)) (accum : list G) : list G :=
    map2 (fun a s => qop G a (qinv G (qprod G (pick (qe G) (map (@b_cv G R) phys) (skipn i s))))) accum strings.
  Lemma bond_pos accum : accum <> [] -> 0 < length (fst (bond_of accum)).
  Proof.
    intros H. pose proof (bond_sum accum) as B. destruct (fst (bond_of accum)); [|cbn; lia]. cbn in B. destruct accum; [congruence|discriminate].
  Qed.
  Lemma map2_id A B (l : list A) (m : list B) f : length l = length m -> (forall a b, f a b = a) -> map2 f l m = l.
  Proof. intros HL Hf. revert m HL. induction l as [|a l IH]; intros [|b m] HL; try discriminate; [reflexivity|]. cbn. rewrite Hf, IH; auto. Qed.
  Lemma blegs3 (T : bt) a b c : meta_ok T -> blegs T = [a; b; c] -> legs T = [fst a; fst b; fst c] /\ qlegs T = [snd a; snd b; snd c].
  Proof.
    intros M E. pose proof (legs_length M) as L1. pose proof (qlegs_length M) as L2. unfold blegs in E. destruct (legs T) as [|x [|y [|z [|w l]]]], (qlegs T) as [|x' [|y' [|z' [|w' l']]]]; cbn in *; try discriminate; try congruence.
    injection E as <- <- <-. auto.
  Qed.
  Lemma total_cons P phys i strings (accum : list G) : (forall s, In s strings -> i < length s) ->
    total_accum phys (S i) strings (next_accum i (b_cv P) strings accum) = total_accum (P :: phys) i strings accum.
  Proof.
    unfold total_accum, next_accum. revert accum. induction strings as [|s st IH]; intros [|a ac] H; try reflexivity. cbn [map2]. rewrite IH by (intros; apply H; right; auto). f_equal.
    rewrite (skipn_cons' 0 s (i := i)) by (apply H; left; auto). cbn [map pick qprod fold_right]. rewrite qinv_op, qop_assoc. reflexivity.
  Qed.
  Lemma sites_ok c strings : strings <> [] -> forall phys i out accum left k, is_left left k -> length (snd k) = length (fst k) -> 0 < length (fst k) ->
    Forall (@phys_ok G R) phys -> length accum = length strings ->
    (forall s j P, In s strings -> nth_error phys j = Some P -> i + j < length s /\ nth (i + j) s 0 < length (b_cv P)) ->
    exists new left' y, rfold (chain_site div sqrt rnd c strings) (combine (seq i (length phys)) phys) (out, accum, left) = Ok (out ++ new, total_accum phys i strings accum, left') /\
      Forall (@valid G R) new /\ fit new k y /\ Forall2 same_leg new phys /\
      map (@b_rule G R) new = map2 (fun P i => qop G (b_rule P) (site_rule c i)) phys (seq i (length phys)) /\
      (forall T, In T new -> sum_list (nth 2 (legs T) []) = length strings /\ Forall (lt 0) (nth 2 (legs T) [])) /\ Forall drawn new /\
      y = match phys with [] => k | _ => bond_of (total_accum phys i strings accum) end /\
      (forall j l0, j < length strings -> Forall (fun P : bt => b_rule P = qe G) phys -> l0 < length (fst k) ->
        qop G (nth l0 (snd k) (qe G)) (site_rule c i) = nth j accum (qe G) ->
        exists ls, nth 0 ls 0 = l0 /\ nth (length phys) ls 0 < length (fst y) /\
          forall t T, nth_error new t = Some T -> stores T [nth t ls 0; nth (i + t) (nth j strings []) 0; nth (S t) ls 0]).
  Proof.
    intros HS. induction phys as [|P phys IH]; intros i out accum left k HLf HkL Hk0 HP HA Hst.
    - exists [], left, k. cbn [length seq combine rfold]. rewrite app_nil_r. split.
      { repeat f_equal. symmetry. apply map2_id; [exact HA|]. intros a s. cbn [map pick qprod fold_right]. rewrite inv_e. apply qop_e_r. }
      split; [constructor|]. split; [reflexivity|]. split; [constructor|]. split; [reflexivity|]. split; [intros T []|]. split; [constructor|]. split; [reflexivity|].
      intros j l0 Hj _ Hl _. exists [l0]. split; [reflexivity|]. split; [exact Hl|]. intros [|t] T E; discriminate.
    - inversion HP as [|? ? HP1 HP2]; subst. clear HP. cbn [length seq combine rfold].
      assert (H0 : forall s, In s strings -> i < length s /\ nth i s 0 < length (b_cv P)).
      { intros s Hs. specialize (Hst s 0 P Hs eq_refl). rewrite Nat.add_0_r in Hst. exact Hst. }
      destruct (@site_ok c strings out accum left k i P HLf HkL Hk0 HP1 HA HS H0) as (T & left1 & E1 & HL1 & VT & BT & RT & ST & DT).
      rewrite E1. cbn [rbind]. set (accum1 := next_accum i (b_cv P) strings accum) in *.
      assert (LA1 : length accum1 = length strings) by (unfold accum1, next_accum; rewrite map2_length; auto).
      assert (NA : accum1 <> []) by (intros E; rewrite E in LA1; destruct strings; [congruence|discriminate]).
      destruct (IH (S i) (out ++ [T]) accum1 left1 (bond_of accum1) HL1 (bond_lens accum1) (bond_pos NA) HP2 LA1) as (new & left2 & y & E2 & V2 & F2 & PL2 & R2 & B2 & D2 & Y2 & S2).
      { intros s j Q Hs Hj. specialize (Hst s (S j) Q Hs Hj). rewrite Nat.add_succ_r in Hst. exact Hst. }
      unfold accum1 in E2, Y2. rewrite total_cons in E2, Y2 by (intros s Hs; apply H0, Hs).
      exists (T :: new), left2, y. split; [unfold accum1; rewrite E2, <- app_assoc; reflexivity|]. split; [constructor; assumption|].
      split. { exists (nth 0 (blegs P) ([], [])), (bond_of accum1). split; [exact BT|exact F2]. }
      split. { constructor; [rewrite BT; reflexivity|exact PL2]. }
      split. { cbn [map map2]. rewrite RT, R2. reflexivity. }
      split. { intros T' [<-|HT]; [|apply B2, HT]. destruct (blegs3 (proj1 VT) BT) as [-> _]. cbn [nth]. rewrite bond_sum. split; [exact LA1|apply bond_sections]. }
      split. { constructor; assumption. }
      split. { destruct phys; [|exact Y2]. rewrite Y2. f_equal. fold accum1. rewrite <- total_cons by (intros s Hs; apply H0, Hs). fold accum1. symmetry.
        apply map2_id; [exact LA1|]. intros a s. cbn [map pick qprod fold_right]. rewrite inv_e. apply qop_e_r. }
      intros j l0 Hj HN Hl Hq. inversion HN as [|? ? HN1 HN2]; subst. set (s := nth j strings []) in *. assert (Hs : In s strings) by (apply nth_In; exact Hj).
      assert (Ej : nth j accum1 (qe G) = qop G (nth j accum (qe G)) (qinv G (nth (nth i s 0) (b_cv P) (qe G)))).
      { unfold accum1, next_accum. erewrite (nth_map2 _ (qe G) [] (qe G)); [reflexivity|exact HA|rewrite HA; exact Hj]. }
      destruct (@bond_index accum1 (nth j accum1 (qe G))) as (r & Hr & Er); [apply nth_In; rewrite LA1; exact Hj|].
      destruct (S2 j r Hj HN2 Hr) as (ls & L0 & LE & LS). { unfold site_rule. cbn [Nat.eqb]. rewrite qop_e_r. exact Er. }
      exists (l0 :: ls). split; [reflexivity|]. split; [exact LE|]. intros [|t] T' E.
      + injection E as <-. cbn [nth]. rewrite L0, Nat.add_0_r. apply ST; [exact Hl|apply H0, Hs|exact Hr|]. rewrite Er, Ej, RT, HN1, qop_e_l, Hq.
        rewrite (qop_comm G (nth j accum (qe G))), qop_assoc, qop_inv_r. apply qop_e_l.
      + cbn [nth]. rewrite Nat.add_succ_r. apply LS. exact E.
  Qed.

  (** * The whole chain *)
  Lemma nth_repeat_lt A (a d : A) n i : i < n -> nth i (repeat a n) d = a.
  Proof. revert i; induction n as [|n IH]; intros [|i] H; cbn; try lia; auto. apply IH. lia. Qed.
  Lemma rmapM_dich A B (f : A -> result B) e (Q : B -> Prop) l : (forall a, In a l -> f a = Throw e \/ exists b, f a = Ok b /\ Q b) ->
    (rmapM f l = Throw e /\ exists a, In a l /\ f a = Throw e) \/ exists m, rmapM f l = Ok m /\ length m = length l /\ forall b, In b m -> Q b.
  Proof.
    induction l as [|a l IH]; intros H; [right; exists []; split; [reflexivity|split; [reflexivity|intros b []]]|]. cbn [rmapM].
    destruct (H a (or_introl eq_refl)) as [E|(b & E & Hb)]; rewrite E; cbn [rbind]; [left; split; [reflexivity|exists a; split; [left; reflexivity|exact E]]|].
    destruct IH as [[E' (a' & H1 & H2)]|(m & E' & HL & Hm)]; [intros a' Ha; apply H; right; exact Ha| |]; rewrite E'; cbn [rbind].
    - left. split; [reflexivity|]. exists a'. split; [right; exact H1|exact H2].
    - right. exists (b :: m). split; [reflexivity|]. split; [cbn; lia|]. intros b' [<-|Hb']; auto.
  Qed.
  Lemma fit_snoc l (b : bt) x y : fit (l ++ [b]) x y <-> exists k s, fit l x k /\ blegs b = [bdual G k; s; y].
  Proof.
    revert x. induction l as [|A l IH]; intros x; cbn [app mps_fit].
    - split; [intros (s & k & E & <-); eauto|intros (k & s & <- & E); eauto].
    - split.
      + intros (s & k & E & H). apply IH in H as (k' & s' & H1 & H2). exists k', s'. split; [exists s, k; auto|exact H2].
      + intros (k' & s' & (s & k & E & H1) & H2). exists s, k. split; [exact E|]. apply IH. exists k', s'. auto.
  Qed.
  Lemma rules_prod c phys : phys <> [] -> qprod G (map2 (fun (P : bt) i => qop G (b_rule P) (site_rule c i)) phys (seq 0 (length phys))) = qop G c (qprod G (map (@b_rule G R) phys)).
  Proof.
    assert (H : forall l i, qprod G (map2 (fun (P : bt) i => qop G (b_rule P) (site_rule c i)) l (seq (S i) (length l))) = qprod G (map (@b_rule G R) l)).
    { induction l as [|P l IH]; intros i; [reflexivity|]. cbn [length seq map2 map qprod fold_right]. fold (qprod G (map (@b_rule G R) l)). rewrite <- (IH (S i)). unfold site_rule at 1. cbn [Nat.eqb]. rewrite qop_e_r. reflexivity. }
    destruct phys as [|P l]; [congruence|]. intros _. cbn [length seq map2 map qprod fold_right]. specialize (H l 0). unfold qprod in *. rewrite H. unfold site_rule. cbn [Nat.eqb].
    rewrite (qop_comm G (b_rule P)), <- qop_assoc. reflexivity.
  Qed.
  Lemma random_all src bond (phys : list bt) c n : 0 < bond -> phys <> [] -> Forall (@phys_ok G R) phys ->
    (random_bMPS div sqrt src rnd bond phys c n = Throw InvalidArgument /\
       exists j, generate_random_string (fun i => src (j * length phys + i)) (map (@b_cv G R) phys) c n = Throw InvalidArgument) \/
    exists out, random_bMPS div sqrt src rnd bond phys c n = Ok out /\ random_chain bond phys c out /\
      (Forall (fun P : bt => b_rule P = qe G) phys -> threaded phys c out) /\
      exists r b S, out = r ++ [S] /\ Forall drawn (r ++ [b]) /\ valid b /\ nonempty b /\ basic_create_view b [-1; -1; 0]%Z true = Ok S /\ (exists x y, legs b = [x; y; [bond]]) /\
        (Forall (fun P : bt => b_rule P = qe G) phys -> Forall (fun T => exists k, stores T k) (r ++ [b])).
  Proof.
    intros Hb Hn HP. unfold random_bMPS. set (L := length phys).
    assert (HC : Forall (fun cv => cv <> []) (map (@b_cv G R) phys)).
    { apply Forall_map. eapply Forall_impl; [|exact HP]. intros P H. destruct (phys_legs H) as (_ & _ & H1 & H2). destruct (b_cv P); [cbn in H1; lia|discriminate]. }
    destruct (@rmapM_dich _ _ (fun j => generate_random_string (fun i => src (j * L + i)) (map (@b_cv G R) phys) c n) InvalidArgument (config (map (@b_cv G R) phys) c) (seq 0 bond))
      as [[E (j & _ & Ej)]|(strings & E & SL & SC)].
    { intros j _. apply string_sound, HC. }
    { left. rewrite E. split; [reflexivity|]. exists j. exact Ej. }
    right. rewrite E. cbn [rbind]. rewrite seq_length in SL. assert (NS : strings <> []) by (intros ->; cbn in SL; lia).
    assert (HL : is_left (@of_struct G R [[(1, qe G)]] (qe G)) (trivial_bond G)).
    { destruct (@from_legs G R (qe G) 1 [[1]] [[qe G]] eq_refl eq_refl) as (HM & H1 & H2 & H3). cbn [lens map concat app] in *. split; [exact H3|]. split; [reflexivity|]. split; [exact H1|].
      split; [|reflexivity]. cbn [bdual snd trivial_bond map]. rewrite inv_e. exact H2. }
    destruct (@sites_ok c strings NS phys 0 [] (repeat c bond) _ _ HL eq_refl Nat.lt_0_1 HP) as (new & left' & y & ER & NV & NF & NP & NR & NB & ND & NY & NT).
    { rewrite repeat_length. auto. }
    { intros s j P Hs Hj. destruct (SC s Hs) as (C1 & C2 & _). assert (Hj' : j < length phys) by (apply nth_error_Some; congruence). rewrite map_length in C1, C2. cbn [Nat.add]. split; [lia|].
      specialize (C2 j Hj'). rewrite (nth_indep _ [] (b_cv P)) in C2 by (rewrite map_length; exact Hj'). rewrite map_nth in C2. rewrite (nth_error_nth _ _ _ Hj) in C2. exact C2. }
    fold L in ER. rewrite ER. cbn [rbind fst app].
    assert (LN : length new = length phys) by (clear - NP; induction NP; cbn; congruence).
    destruct (exists_last (l := new)) as (r & b & ->); [intros ->; cbn in LN; destruct phys; [congruence|discriminate]|]. rewrite rev_app_distr. cbn [rev app]. rewrite rev_involutive.
    assert (EY : y = ([bond], [qe G])).
    { rewrite NY. destruct phys as [|P l]; [congruence|]. unfold total_accum. set (ac := map2 _ _ _). assert (La : length ac = bond) by (unfold ac; rewrite map2_length; rewrite repeat_length; auto).
      rewrite (@bond_const ac (qe G)); [rewrite La; reflexivity|intros Ea; rewrite Ea in La; cbn in La; lia|].
      intros x Hx. apply (In_nth _ _ (qe G)) in Hx as (j & Hj & <-). unfold ac in *. rewrite map2_length in Hj by (rewrite repeat_length; auto). rewrite repeat_length in Hj.
      rewrite (nth_map2 _ (qe G) []) by (rewrite repeat_length; auto). rewrite nth_repeat_lt by exact Hj. cbn [skipn]. destruct (SC (nth j strings [])) as (_ & _ & ->); [apply nth_In; lia|]. apply qop_inv_r. }
    rewrite EY in *. clear EY NY. apply Forall_app in NV as [NV1 NV2]. inversion NV2 as [|? ? VB _]; subst. clear NV2. apply fit_snoc in NF as (k & s & F1 & F2).
    destruct (blegs3 (proj1 VB) F2) as [LB QB]. cbn [fst snd] in LB, QB.
    assert (HPA : pat_ok (legs b) [None; None; Some 0]) by (rewrite LB; cbn; lia).
    assert (HTS : tail_single (legs b) [None; None; Some 0]).
    { rewrite LB. intros i Hi H. destruct i as [|[|[|i]]]; [exfalso; apply (H 0); [cbn; lia|reflexivity]|exfalso; apply (H 1); [cbn; lia|reflexivity]|reflexivity|cbn in Hi; lia]. }
    apply Forall2_app_inv_l in NP as (ph1 & ph2 & P1 & P2 & EP). inversion P2 as [|? Pl ? l' Pb P3]; subst ph2. inversion P3; subst l'. clear P3 P2.
    assert (HNE : nonempty b).
    { intros z Hz. rewrite LB in Hz. destruct Hz as [<-|[<-|[<-|[]]]]; [| |cbn; lia].
      - cbn [bdual fst]. destruct r as [|r0 r'] eqn:Er; [cbn in F1; subst k; cbn; lia|]. rewrite <- Er in *. destruct (exists_last (l := r)) as (r1 & b1 & E1); [congruence|].
        rewrite E1 in F1. apply fit_snoc in F1 as (k1 & s1 & _ & F3). assert (H1 : In b1 r) by (rewrite E1; apply in_or_app; right; left; reflexivity).
        rewrite Forall_forall in NV1. destruct (blegs3 (proj1 (NV1 _ H1)) F3) as [LB1 _]. specialize (NB b1 (in_or_app _ _ _ (or_introl H1))). rewrite LB1 in NB. cbn [nth] in NB. destruct NB as [NB _]. lia.
      - rewrite Forall_forall in HP. assert (HPl : phys_ok Pl) by (apply HP; rewrite EP; apply in_or_app; right; left; reflexivity).
        destruct (phys_legs HPl) as (LPl & QPl & _). rewrite F2 in Pb. unfold blegs in Pb. rewrite LPl, QPl in Pb. cbn in Pb. subst s. cbn [fst]. apply (proj2 (proj2 HPl)). rewrite LPl. left. reflexivity. }
    destruct (view_keep VB HNE HPA HTS) as (S & ES & VS & RS & LS & SS & _). change (zpat [None; None; Some 0]) with [-1; -1; 0]%Z in ES. rewrite ES. cbn [rbind].
    destruct (SS [None; None; Some 0] [None; None; Some 0]) as [QS TS]; [rewrite LB; cbn; repeat split; cbn; lia|]. clear SS.
    rewrite LB in LS. rewrite QB in QS. cbn in LS, QS.
    assert (BS : blegs S = [bdual G k; s; trivial_bond G]).
    { unfold blegs. rewrite LS, QS. cbn [combine]. destruct s. reflexivity. }
    exists (r ++ [S]). split; [reflexivity|]. split; [|split].
    - split; [apply Forall_app; split; [exact NV1|constructor; [exact VS|constructor]]|].
      split; [apply fit_snoc; exists k, s; split; [exact F1|exact BS]|].
      split. { rewrite EP. apply Forall2_app; [exact P1|]. constructor; [|constructor]. rewrite BS. rewrite F2 in Pb. exact Pb. }
      split. { rewrite <- (rules_prod c Hn), <- NR, !map_app, !qprod_app. cbn [map]. rewrite RS. reflexivity. }
      intros i T Hi Hl. rewrite app_length in Hl. cbn in Hl. rewrite nth_error_app1 in Hi by lia. apply (NB T). apply in_or_app. left. apply (nth_error_In _ _ Hi).
    - intros HN. destruct (NT 0 0) as (ls & _ & LE & HS); [lia|exact HN|cbn; lia| |].
      { cbn [trivial_bond snd nth]. unfold site_rule. cbn [Nat.eqb]. rewrite qop_e_l. rewrite nth_repeat_lt by exact Hb. reflexivity. }
      cbn in LE. exists (nth 0 strings []), ls. split; [apply SC, nth_In; lia|]. intros i T Hi. destruct (Nat.lt_ge_cases i (length r)) as [Hlt|Hge].
      + rewrite nth_error_app1 in Hi by exact Hlt. apply (HS i). rewrite nth_error_app1 by exact Hlt. exact Hi.
      + rewrite nth_error_app2 in Hi by exact Hge. destruct (i - length r) as [|m] eqn:Em; [|destruct m; discriminate]. injection Hi as <-.
        assert (Ei : i = length r) by lia. subst i. specialize (HS (length r) b). rewrite nth_error_app2, Nat.sub_diag in HS by lia. specialize (HS eq_refl). cbn [Nat.add] in HS.
        rewrite app_length in LN. cbn in LN. replace (Datatypes.S (length r)) with (length phys) in * by lia. assert (E0 : nth (length phys) ls 0 = 0) by lia. rewrite E0 in *.
        destruct HS as [t Ht]. destruct (valid_assoc _ VB Ht) as [[IR _] _].
        assert (IS : in_range (b_sbd S) [nth (length r) ls 0; nth (length r) (nth 0 strings []) 0; 0] = true).
        { rewrite <- (legs_lens (proj1 VS)), LS. rewrite <- (legs_lens (proj1 VB)), LB in IR. exact IR. }
        destruct (proj2 (TS _ IS)) as [t' Ht']. { exists t. apply (assoc_In key_order_idx) in Ht. exact Ht. }
        exists t'. apply (In_assoc key_order_idx); [apply VS|exact Ht'].
    - exists r, b, S. split; [reflexivity|]. split; [exact ND|]. split; [exact VB|]. split; [exact HNE|]. split; [exact ES|]. split; [rewrite LB; eauto|].
      intros HN. destruct (NT 0 0) as (ls & _ & _ & HS); [lia|exact HN|cbn; lia| |].
      { cbn [trivial_bond snd nth]. unfold site_rule. cbn [Nat.eqb]. rewrite qop_e_l. rewrite nth_repeat_lt by exact Hb. reflexivity. }
      apply Forall_forall. intros T HT. apply In_nth_error in HT as (i & Hi). eexists. apply (HS i T Hi).
  Qed.
  Theorem random_thm src bond (phys : list bt) c n : 0 < bond -> phys <> [] -> Forall (@phys_ok G R) phys ->
    (random_bMPS div sqrt src rnd bond phys c n = Throw InvalidArgument /\
       exists j, generate_random_string (fun i => src (j * length phys + i)) (map (@b_cv G R) phys) c n = Throw InvalidArgument) \/
    exists out, random_bMPS div sqrt src rnd bond phys c n = Ok out /\ random_chain bond phys c out /\
      (Forall (fun P : bt => b_rule P = qe G) phys -> threaded phys c out).
  Proof. intros H1 H2 H3. destruct (random_all src c n H1 H2 H3) as [H|(out & E & R1 & R2 & _)]; [left; exact H|right; exists out; auto]. Qed.
End P.

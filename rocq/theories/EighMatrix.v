(** The block eigenvalue decomposition of a matrix gives the factors of a singular value decomposition with both unitary factors equal. *)
From Verif Require Import Base Quantity QuantityProofs FlatMap SpecFlatMap FlatMapProofs Ring Index SpecIndex Dense IndexProofs BTensor SpecBTensor LegsProofs
  BTensorProofs BTensorThms BTensorThms2 BTensorArith ArithProofs Tensordot SpecTensordot TensordotProofs TensordotThms Reshape SpecReshape ReshapeProofs ReshapeThms View SpecView ViewProofs ViewThms
  Chain SpecChain ChainProofs ChainInst SpecSector SectorThms SpecSvd Edges SpecEdges EdgesProofs EdgesBlock BmmThms BSvd SvdPieces SvdProofs SvdThms SvdMain SvdDense Truncate BTrunc BEigh SpecEigh EighPieces EighLoop.
From Coq Require Import Permutation.
Set Implicit Arguments.

Section M.
  Variable G : abgroup.
  Variable R : ring.
  Notation t := (btensor G R).
  Notation "'e'" := (qe G).
  Notation stores := SpecReshape.stored.
  Notation piece := (dense R * list slice * list slice)%type.

  Lemma legs_both (X : t) : valid X -> legs X = map fst (blegs X) /\ qlegs X = map snd (blegs X).
  Proof.
    intros VX. split; [symmetry; apply blegs_fst; apply VX|]. unfold blegs. pose proof (legs_length (proj1 VX)) as LL. pose proof (qlegs_length (proj1 VX)) as LQ. rewrite <- LQ in LL. revert LL. generalize (legs X) (qlegs X).
    induction l as [|x l IH]; intros [|y m] HLL; try discriminate; [reflexivity|]. cbn. f_equal. apply IH. cbn in HLL. lia.
  Qed.
  Lemma same_blegs (A B : t) : valid A -> valid B -> blegs A = blegs B -> b_rule A = b_rule B -> b_blocks A = b_blocks B -> A = B.
  Proof.
    intros VA VB E E1 E2. destruct (legs_both VA) as (a1 & a2), (legs_both VB) as (b1 & b2). apply same_record; try apply VA; try apply VB; congruence.
  Qed.

  Lemma rmapM_In A B (f : A -> result B) l : forall r y, rmapM f l = Ok r -> In y r -> exists x, In x l /\ f x = Ok y.
  Proof.
    induction l as [|a l IH]; intros r y E H; cbn in E.
    - injection E as <-. destruct H.
    - destruct (f a) as [b| |] eqn:Ea; try discriminate. cbn in E. destruct (rmapM f l) as [r'| |] eqn:El; try discriminate. cbn in E. injection E as <-.
      destruct H as [<-|H]; [exists a; split; [left; reflexivity|exact Ea]|]. destruct (IH _ _ eq_refl H) as (x & H1 & H2). exists x. split; [right; exact H1|exact H2].
  Qed.
  Lemma F2_In A B (P : A -> B -> Prop) l m y : Forall2 P l m -> In y m -> exists x, In x l /\ P x y.
  Proof. induction 1 as [|a b l m H H' IH]; intros Hy; [destruct Hy|]. destruct Hy as [<-|Hy]; [exists a; split; [left; reflexivity|exact H]|]. destruct (IH Hy) as (x & H1 & H2). exists x. split; [right; exact H1|exact H2]. Qed.

  Lemma F2_In2 A B (P : A -> B -> Prop) l m x : Forall2 P l m -> In x l -> exists y, In y m /\ P x y.
  Proof. induction 1 as [|a b l m H H' IH]; intros Hy; [destruct Hy|]. destruct Hy as [<-|Hy]; [exists b; split; [left; reflexivity|exact H]|]. destruct (IH Hy) as (y & H1 & H2). exists y. split; [right; exact H1|exact H2]. Qed.

  Section T.
    Variable T : t.
    Variables (l : list nat) (qs : list G).
    Hypothesis V : valid T.
    Hypothesis HL : legs T = [l; l].
    Hypothesis HQ : qlegs T = [qs; map (qinv G) qs].
    Hypothesis HR : b_rule T = e.
    Hypothesis SYM : forall i j, stores T [i; j] -> stores T [j; i].
    Hypothesis ORD : forall i j i' j', stores T [i; j] -> stores T [i'; j'] -> j' < j -> nth j' (map (qinv G) qs) e = nth j (map (qinv G) qs) e -> exists i0, i0 <= i /\ stores T [i0; j'].
    Notation pok := (piece_ok T l l qs (map (qinv G) qs)).
    Lemma nth_inv j : nth j (map (qinv G) qs) e = qinv G (nth j qs e).
    Proof. rewrite <- (map_nth (qinv G)). rewrite inv_e. reflexivity. Qed.
    (** Both sections of a stored block carry the same quantity. *)
    Lemma stored_same i j : stores T [i; j] -> nth i qs e = nth j qs e /\ i < length l /\ j < length l.
    Proof.
      intros (v & Hv). destruct (@stored_pair G R T _ _ _ _ V HL HQ _ _ Hv) as (i' & j' & E & Hi & Hj & HE & _). injection E as <- <-. rewrite nth_inv, HR in HE. split; [|auto].
      apply (qop_cancel_r G (qinv G (nth j qs e))). rewrite HE, qop_inv_r. reflexivity.
    Qed.
    Lemma compacted_aligned M rows cols : compacted T (M, rows, cols) -> rows = cols.
    Proof.
      intros (ps & EC & HI). destruct (@pieces_spec R (G * G) (pkey T) (pkeqb G) (pklt G) (pkey_order G) (b_blocks T)) as (ks & E & _ & HK).
      unfold compact_dense in EC. destruct (rmapM_In _ _ _ EC HI) as (p & Hp & EP). change (match reorder_by_cvals T with [] => [] | x :: r => runs (equal_c_vals T) x [x] r end) with
        (match stable_sort (fun a b => pklt G (pkey T a) (pkey T b)) (b_blocks T) with [] => [] | x :: r => runs (fun a b => pkeqb G (pkey T a) (pkey T b)) x [x] r end) in Hp.
      rewrite E in Hp. apply in_map_iff in Hp as (k & <- & Hk).
      pose proof (fun e0 => @piece_entry G R T _ _ _ _ V HL HQ k e0) as PE.
      assert (PI : forall e0, In e0 (filter (fun x => pkeqb G (pkey T x) k) (b_blocks T)) <-> exists i j v, e0 = ([i; j], v) /\ In ([i; j], v) (b_blocks T) /\ nth i qs e = fst k /\ nth j (map (qinv G) qs) e = snd k) by exact PE.
      apply (@aligned R (szr l) (szc l) _ M rows cols) in EP; [exact EP| | |reflexivity| |].
      - apply Forall_forall. intros y Hy. apply filter_In in Hy as (Hy & _). apply (@block_entry_ok G R T _ _ _ _ V HL HQ _ Hy).
      - apply sorted_filter. apply V.
      - intros e1 e2 H1 H2 HLt. apply PI in H1 as (i & j & v & -> & I1 & K1 & K2). apply PI in H2 as (i' & j' & v' & -> & I1' & K1' & K2'). cbn in HLt.
        destruct (@ORD i j i' j') as (i0 & Hi0 & (v0 & Hv0)); [exists v; exact I1|exists v'; exact I1'|exact HLt|congruence|]. exists ([i0; j'], v0). split; [|split; [reflexivity|cbn; exact Hi0]].
        apply PI. exists i0, j', v0. split; [reflexivity|]. split; [exact Hv0|]. split; [|exact K2']. destruct (stored_same (ex_intro _ v0 Hv0)) as (E0 & _). destruct (stored_same (ex_intro _ v' I1')) as (E1 & _). congruence.
      - assert (SW : forall i j v, In ([i; j], v) (b_blocks T) -> nth i qs e = fst k -> nth j (map (qinv G) qs) e = snd k -> exists v', In ([j; i], v') (b_blocks T) /\ nth j qs e = fst k /\ nth i (map (qinv G) qs) e = snd k).
        { intros i j v Hv K1 K2. destruct (SYM (ex_intro _ v Hv)) as (v' & Hv'). exists v'. split; [exact Hv'|]. destruct (stored_same (ex_intro _ v Hv)) as (E0 & _). rewrite nth_inv in *. split; congruence. }
        intros b. split; intros (e0 & H & Eb); apply PI in H as (i & j & v & -> & I1 & K1 & K2); cbn in Eb; subst b; destruct (SW _ _ _ I1 K1 K2) as (v' & I2 & K3 & K4).
        + exists ([j; i], v'). split; [apply PI; exists j, i, v'; auto|reflexivity].
        + exists ([j; i], v'). split; [apply PI; exists j, i, v'; auto|reflexivity].
    Qed.
    Lemma compacted_ok M rows cols : compacted T (M, rows, cols) -> rows = cols /\ exists k, pok k (M, rows, cols).
    Proof.
      intros H. split; [apply (compacted_aligned H)|]. destruct H as (ps & EC & HI). destruct (compact_ok V HL HQ) as (ps' & ks & EC' & _ & HP & _). rewrite EC in EC'. injection EC' as <-.
      destruct (F2_In _ HP HI) as (k & _ & Hk). eauto.
    Qed.
    Lemma tiling_total sz (a : list slice) n n' : tiling sz a n -> tiling sz a n' -> n = n'.
    Proof.
      intros (ND & l1 & P1 & T1) (_ & l2 & P2 & T2). assert (H : forall x m, tiled sz x m -> m = sum_list (map (fun b => sz (fst b)) x)).
      { induction 1 as [|x m b H IH]; [reflexivity|]. rewrite map_app, sum_list_app, <- IH. cbn. lia. }
      rewrite (H _ _ T1), (H _ _ T2). assert (P : Permutation l1 l2) by (rewrite P1, P2; reflexivity). clear -P. induction P; cbn; try lia; unfold sum_list in *; cbn in *; lia.
    Qed.
    Lemma compacted_fine p : compacted T p -> fine p.
    Proof.
      destruct p as ((M, rows), cols). intros H. destruct (compacted_ok H) as (-> & k & (m & n & SM & TR & TC & _)). split; [reflexivity|]. rewrite SM. cbn. exact (tiling_total TR TC).
    Qed.

    (** The matrices decomposed are principal submatrices. *)
    Section Principal.
      Variables (T' : t) (D : dense R) (s : nat) (fr : nat -> nat -> list nat).
      Hypothesis R1 : forall r x, r < length l -> x < nth r l 0 -> index_carries (firstn s (blegs T')) (fr r x) (nth r qs e).
      Hypothesis R2 : forall r x r' x', r < length l -> x < nth r l 0 -> r' < length l -> x' < nth r' l 0 -> fr r x = fr r' x' -> r = r' /\ x = x'.
      Hypothesis E1 : forall r x c y, r < length l -> x < nth r l 0 -> c < length l -> y < nth c l 0 -> bentry T [r; c] [x; y] = dv D (fr r x ++ fr c y).
      Lemma taken_principal M : taken T M -> principal s T' D M.
      Proof.
        intros (rows & cols & HC). destruct (compacted_ok HC) as (<- & k & (m & n & SM & TR & TC & KR & KC & _ & VM)). pose proof (tiling_total TR TC) as <-.
        assert (RI : forall i, In i (map fst rows) -> i < length l /\ nth i qs e = fst k).
        { intros i Hi. apply KR in Hi as (j & Hv & K1 & K2). destruct (stored_same Hv) as (_ & Hi & _). auto. }
        assert (RP : forall i, i < m -> exists r o x, hit rows i = (r, x) /\ In (r, (o, nth r l 0)) rows /\ i = o + x /\ x < nth r l 0 /\ r < length l /\ nth r qs e = fst k).
        { intros i Hi. destruct (hit_spec TR Hi) as (r & o & w & HH & I1 & B1 & B2 & ->). exists r, o, (i - o). unfold szr in *. split; [exact HH|]. split; [exact I1|]. split; [lia|]. split; [exact B2|]. apply RI. apply (in_map fst) in I1. exact I1. }
        exists m, (fun i => let '(r, x) := hit rows i in fr r x), (fst k). split; [exact SM|]. split; [|split].
        - intros i Hi. destruct (RP i Hi) as (r & o & x & -> & _ & _ & B1 & B2 & <-). apply R1; auto.
        - intros i i' Hi Hi' E. apply (hit_inj TR Hi Hi'). destruct (RP i Hi) as (r & o & x & A1 & _ & _ & B1 & B2 & _). destruct (RP i' Hi') as (r' & o' & x' & A1' & _ & _ & B1' & B2' & _).
          rewrite A1, A1' in *. destruct (R2 B2 B1 B2' B1' E) as (-> & ->). reflexivity.
        - intros i j Hi Hj. destruct (RP i Hi) as (r & o & x & -> & I1 & -> & B1 & B2 & _). destruct (RP j Hj) as (c & o' & y & -> & I2 & -> & B3 & B4 & _).
          rewrite (VM r o _ c o' _ x y I1 I2 B1 B3). apply E1; auto.
      Qed.
    End Principal.

    (** When all blocks on the diagonal are stored every row belongs to a matrix. *)
    Lemma tiling_sum_keys sz (a : list slice) n : tiling sz a n -> n = sum_list (map sz (map fst a)).
    Proof.
      intros (_ & l' & P & H). assert (E : n = sum_list (map sz (map fst l'))).
      { clear P. induction H as [|x m b H IH]; [reflexivity|]. rewrite !map_app, sum_list_app, <- IH. cbn. lia. }
      rewrite E. clear -P. induction P; cbn; try lia; unfold sum_list in *; cbn in *; lia.
    Qed.
    Lemma pieces_total ks ps : NoDup ks -> Forall2 pok ks ps -> (forall i, i < length l -> stores T [i; i]) -> (forall p, In p ps -> snd (fst p) = snd p) -> (forall i j, stores T [i; j] -> In (nth i qs e, nth j (map (qinv G) qs) e) ks) -> sum_list (map (@msize R) ps) = sum_list l.
    Proof.
      intros ND HP DG AL HS. set (keys := fun p : piece => map fst (snd (fst p))).
      assert (E : map (@msize R) ps = map (fun p => sum_list (map (szr l) (keys p))) ps).
      { apply map_ext_in. intros ((M, rows), cols) Hp. pose proof (AL _ Hp) as A. cbn in A. subst cols. destruct (F2_In _ HP Hp) as (k & _ & (m & n & SM & TR & TC & _)). unfold msize, keys. cbn [fst snd]. rewrite SM. cbn [nth]. rewrite (tiling_total TC TR), Nat.min_id. apply tiling_sum_keys. exact TR. }
      rewrite E. assert (E2 : sum_list (map (fun p => sum_list (map (szr l) (keys p))) ps) = sum_list (map (szr l) (concat (map keys ps)))).
      { clear. induction ps as [|p ps IH]; [reflexivity|]. cbn [map concat]. rewrite map_app, sum_list_app, <- IH. reflexivity. }
      rewrite E2. clear E E2. assert (P : Permutation (concat (map keys ps)) (seq 0 (length l))).
      { apply NoDup_Permutation.
        - clear AL HS DG. induction HP as [|k ((M, rows), cols) ks ps HK HP IH]; [constructor|]. inversion ND as [|? ? N1 N2]; subst. cbn [map concat]. apply NoDup_app_intro.
          + destruct HK as (m & n & _ & (X & _) & _). exact X.
          + apply IH. exact N2.
          + intros i Hi Hi'. apply in_concat in Hi' as (x & Hx & Hi'). apply in_map_iff in Hx as (((M', rows'), cols') & <- & Hp). destruct (F2_In _ HP Hp) as (k' & Hk' & HK'). unfold keys in Hi, Hi'. cbn [fst snd] in Hi, Hi'.
            destruct HK as (m & n & _ & _ & _ & KR & _). destruct HK' as (m' & n' & _ & _ & _ & KR' & _). destruct (proj1 (KR i) Hi) as (j & H1 & H2 & H3). destruct (proj1 (KR' i) Hi') as (j' & H1' & H2' & H3').
            apply N1. assert (k = k') as ->; [|exact Hk']. destruct (stored_same H1) as (Q1 & _). destruct (stored_same H1') as (Q1' & _). rewrite nth_inv in H3, H3'. destruct k, k'. cbn in *. congruence.
        - apply seq_NoDup.
        - intros i. rewrite in_seq, in_concat. split.
          + intros (x & Hx & Hi). apply in_map_iff in Hx as (((M, rows), cols) & <- & Hp). destruct (F2_In _ HP Hp) as (k & _ & (m & n & _ & _ & _ & KR & _)). unfold keys in Hi. cbn [fst snd] in Hi. destruct (proj1 (KR i) Hi) as (j & Hv & _). destruct (stored_same Hv) as (_ & H & _). lia.
          + intros (_ & Hi). specialize (HS i i (DG i Hi)). destruct (F2_In2 _ HP HS) as (((M, rows), cols) & Hp & (m & n & _ & _ & _ & KR & _)). exists (keys (M, rows, cols)). split; [apply in_map; exact Hp|]. unfold keys. cbn [fst snd]. apply KR. exists i. split; [apply DG; exact Hi|]. cbn. auto. }
      assert (PS : forall a b : list nat, Permutation a b -> sum_list a = sum_list b) by (clear; induction 1; cbn; try lia; unfold sum_list in *; cbn in *; lia).
      rewrite (PS _ _ (Permutation_map (szr l) P)). f_equal. unfold szr. clear. induction l as [|a m IH]; [reflexivity|]. cbn [length seq map nth]. f_equal. rewrite <- seq_shift, map_map. exact IH.
    Qed.

    Hypothesis HN : nonempty T.
    Hypothesis HF : 0 < nth 0 l 0.
    Hypothesis H0 : qop G (nth 0 qs e) (nth 0 qs e) = e.
    Variable deigh : bool -> dense R -> dense R * dense R.
    Variable upper : bool.
    Lemma eigh_svd U d W k : svd (twice deigh upper) T = Ok (U, d, W) -> valid U -> valid W -> blegs U = [(l, qs); k] -> blegs W = [(l, map (qinv G) (map (qinv G) qs)); k] -> b_rule U = e -> b_rule W = e ->
      eigh deigh T upper = Ok (d, U) /\ W = U /\ ((forall i, i < length l -> stores T [i; i]) -> sum_list (fst k) = sum_list l).
    Proof.
      intros E VU VW BU BW RU RW. unfold svd in E. destruct (compact_ok V HL HQ) as (ps & ks & EC & ND & HP & HS). rewrite EC in E. cbn [rbind] in E.
      destruct (@shapes_ok G R (twice deigh upper) T _ _ _ _ V HL HQ HN _ _ HP) as (U0 & d0 & W0 & ES & HU & Hd & HW). rewrite ES in E. cbn [rbind] in E.
      destruct (eigh_shapes_ok V HL HQ HN HF HP) as (d1 & U1 & ES' & HU1 & Hd1).
      assert (FN : Forall (@fine R) ps) by (apply Forall_forall; intros p Hp; apply compacted_fine; exists ps; auto).
      assert (WS : map (@wsize R) ps = map (@msize R) ps).
      { apply map_ext_in. intros ((M, rows), cols) Hp. rewrite Forall_forall in FN. destruct (FN _ Hp) as (_ & EQ). unfold wsize, msize. rewrite EQ. symmetry. apply Nat.min_id. }
      rewrite WS in HU1, Hd1. replace (qop G (b_rule T) _) with (b_rule T) in HU1.
      2:{ rewrite nth_inv, !qinv_inv, H0, qop_e_r. reflexivity. }
      assert (U1 = U0) as -> by (apply (shape_same HU1 HU)). assert (d1 = d0) as -> by (apply (shape_same Hd1 Hd)).
      destruct (rfold _ ps (0, U0, d0, W0)) as [(((b', U'), d'), W')| |] eqn:EL; try discriminate. cbn [rbind] in E. injection E as -> -> <-.
      destruct (loops deigh upper 0 U0 d0 W0 FN (eq_trans (proj1 (proj2 HU)) (eq_sym (proj1 (proj2 HW)))) EL) as (H1 & H2 & H3). split; [|split].
      - unfold eigh. rewrite EC. cbn [rbind]. rewrite ES'. cbn [rbind]. unfold allocate. rewrite H2. cbn [rbind]. rewrite H3. reflexivity.
      - apply same_blegs; try assumption; [|congruence|symmetry; exact H1]. rewrite BU, BW. do 2 f_equal. rewrite map_map. rewrite <- (map_id qs) at 2. apply map_ext. apply qinv_inv.
      - intros DG. pose proof (proj1 (legs_both VU)) as LU. rewrite BU in LU. cbn in LU. rewrite (loop_legs _ _ _ _ _ _ H3), (proj1 (proj2 (proj2 HU))) in LU. injection LU as <-.
        apply (pieces_total ND HP DG); [|exact HS]. intros ((M, rows), cols) Hp. apply (compacted_aligned (ex_intro _ ps (Logic.conj EC Hp))).
    Qed.
  End T.
End M.

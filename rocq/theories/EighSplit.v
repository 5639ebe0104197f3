(** The block eigenvalue decomposition of Hermitian tensors cut in the middle. *)
From Verif Require Import Base Quantity QuantityProofs FlatMap SpecFlatMap FlatMapProofs Ring Index SpecIndex Dense IndexProofs BTensor SpecBTensor LegsProofs
  BTensorProofs BTensorThms BTensorThms2 BTensorArith ArithProofs Tensordot SpecTensordot TensordotProofs TensordotThms Reshape SpecReshape ReshapeProofs ReshapeThms View SpecView ViewProofs ViewThms
  Chain SpecChain ChainProofs ChainInst SpecSector SectorThms SpecSvd Edges SpecEdges EdgesProofs EdgesBlock BmmThms BSvd SvdPieces SvdProofs SvdThms SvdMain SvdDense Truncate BTrunc BEigh SpecEigh EighPieces EighLoop EighMatrix EighThms.
From Coq Require Import Permutation.
Set Implicit Arguments.

Section E.
  Variable G : abgroup.
  Variable R : ring.
  Notation t := (btensor G R).
  Notation "'e'" := (qe G).
  Notation stores := SpecReshape.stored.
  Notation sizes L := (map (@bsz G) L).

  (** The rule of the shape does not matter. *)
  Lemma compat_same A (P : t -> list nat -> result A) aeqb X O O' : (forall b, P O b = P O' b) -> b_sbd O = b_sbd O' -> forall fuel li ri, compat_loop P aeqb X O fuel li ri = compat_loop P aeqb X O' fuel li ri.
  Proof. intros HP HS. induction fuel as [|f IH]; intros li ri; [reflexivity|]. cbn [compat_loop]. rewrite HP, HS. destruct (P X li) as [x| |]; cbn [rbind]; try reflexivity. destruct (P O' ri) as [y| |]; cbn [rbind]; try reflexivity. rewrite IH. reflexivity. Qed.
  Lemma reshape_as_same (X O O' : t) : b_rank O = b_rank O' -> b_sbd O = b_sbd O' -> b_ss O = b_ss O' -> b_cv O = b_cv O' -> reshape_as false X O = reshape_as false X O'.
  Proof.
    destruct O as [r n a b c bs], O' as [r' n' a' b' c' bs']. cbn. intros <- <- <- <-. unfold reshape_as, compatible_c_vals, compatible_block_size. cbn [b_sbd b_rank b_ss b_cv].
    rewrite (@compat_same _ flux (qeqb G) X (@mkB G R r n a b c bs) (@mkB G R r' n a b c bs')) by reflexivity. rewrite (@compat_same _ volume Nat.eqb X (@mkB G R r n a b c bs) (@mkB G R r' n a b c bs')) by reflexivity. reflexivity.
  Qed.

  Lemma pick_dual (Q : list (list G)) : forall j, in_range (map (@length G) Q) j = true -> qprod G (pick e (map (map (qinv G)) Q) j) = qinv G (qprod G (pick e Q j)).
  Proof.
    induction Q as [|a Q IH]; intros [|x j] Hj; try discriminate; [symmetry; apply qinv_e|]. cbn [map] in Hj. apply in_range_cons in Hj as (H1 & H2). cbn [map pick].
    change (qop G (nth x (map (qinv G) a) e) (qprod G (pick e (map (map (qinv G)) Q) j)) = qinv G (qop G (nth x a e) (qprod G (pick e Q j)))). rewrite qinv_op, (IH j H2), nth_inv. reflexivity.
  Qed.
  Section S.
    Variables (T : t) (s : nat) (L : list (list nat * list G)) (D : dense R).
    Hypothesis V : valid T.
    Hypothesis N : nonempty T.
    Hypothesis SQ : square s T L.
    Hypothesis Hs : 0 < s.
    Hypothesis FD : dense_form T D.
    Let L1 := map fst L.
    Let Q1 := map snd L.
    Lemma sq_legs : legs T = L1 ++ L1 /\ qlegs T = Q1 ++ map (map (qinv G)) Q1 /\ length L1 = s /\ length Q1 = s /\ map (@length G) Q1 = lens L1 /\ b_rank T = s + s /\ b_sbd T = lens L1 ++ lens L1.
    Proof.
      destruct SQ as (LL & BT & _). destruct (legs_both V) as (HL & HQ). rewrite BT in HL, HQ. rewrite !map_app, !map_map in HL, HQ. cbn [bdual fst snd] in HL, HQ. unfold L1, Q1. rewrite !map_length.
      assert (E1 : legs T = map fst L ++ map fst L) by exact HL. assert (E2 : qlegs T = map snd L ++ map (map (qinv G)) (map snd L)) by (rewrite map_map; exact HQ).
      split; [exact E1|]. split; [exact E2|]. split; [exact LL|]. split; [exact LL|]. split; [|split].
      - pose proof (qlegs_lens (proj1 V)) as NQ. rewrite <- (legs_lens (proj1 V)), E1, E2 in NQ. unfold lens in *. rewrite !map_app in NQ. apply app_inj_len in NQ; [apply NQ|]. rewrite !map_length. reflexivity.
      - rewrite <- (legs_length (proj1 V)), E1, app_length, map_length. lia.
      - rewrite <- (legs_lens (proj1 V)), E1. unfold lens. apply map_app.
    Qed.
    Lemma cut A (x y : list A) : length x = s -> firstn s (x ++ y) = x /\ skipn s (x ++ y) = y.
    Proof. intros <-. rewrite firstn_app, skipn_app, Nat.sub_diag, firstn_all, skipn_all. cbn. rewrite app_nil_r. auto. Qed.
    Notation l := (merged_leg L1).
    Notation qs := (merged_qleg G Q1).
    Definition fr a x := place L1 (unrank (lens L1) a) (unrank (pick 0 L1 (unrank (lens L1) a)) x).
    Lemma squared : exists M0, reshape T [s] = Ok M0 /\ valid M0 /\ nonempty M0 /\ legs M0 = [l; l] /\ qlegs M0 = [qs; map (qinv G) qs] /\ b_rule M0 = e /\
      (forall b1 b2, in_range (lens L1) b1 = true -> in_range (lens L1) b2 = true -> (stores M0 [rowmajor (lens L1) b1; rowmajor (lens L1) b2] <-> stores T (b1 ++ b2))) /\
      forall a x c y, a < length l -> x < nth a l 0 -> c < length l -> y < nth c l 0 -> bentry M0 [a; c] [x; y] = dv D (fr a x ++ fr c y).
    Proof.
      destruct sq_legs as (LT & QT & len1 & qlen1 & NQ1 & RK & SP). set (r := b_rank T) in *.
      assert (HS : forall n, In n (b_sbd T) -> 0 < n) by (apply nonempty_sbd; [apply V|exact N]).
      destruct (@reshape_spec G R T [s; r - s] V) as (M0 & EM & VM & (RG1 & RG2 & RG3 & RG4 & RG5 & RG6) & _); [| |exact HS|].
      { split; [intros n [<-|[<-|[]]]; lia|]. cbn. fold r. lia. } { fold r. lia. }
      assert (U1 : forall A (x : list A), length x = r -> unpack [s; r - s] x = [firstn s x; skipn s x]) by (intros A x E; rewrite <- E; apply unpack2; lia).
      rewrite U1 in RG3 by (apply legs_length, V). rewrite U1 in RG4 by (apply qlegs_length, V). cbn [map] in RG3, RG4. rewrite LT in RG3. rewrite QT in RG4.
      destruct (@cut _ L1 L1 len1) as (C1 & C2). destruct (@cut _ Q1 (map (map (qinv G)) Q1) qlen1) as (C3 & C4). rewrite C1, C2 in RG3. rewrite C3, C4, <- merged_dual in RG4. change (boundaries [s; r - s]) with [s] in EM.
      exists M0. split; [exact EM|]. split; [exact VM|]. split; [|split; [exact RG3|split; [exact RG4|split; [rewrite RG1; apply SQ|]]]].
      { intros x Hx. rewrite RG3 in Hx. assert (E : x = l) by (destruct Hx as [<-|[<-|[]]]; reflexivity). subst x. rewrite merged_total. apply prod_pos. intros n Hn. apply in_map_iff in Hn as (y & <- & Hy). apply N. rewrite LT. apply in_or_app. auto. }
      assert (GR : forall b1 b2, length b1 = s -> length b2 = s -> grouped [s; r - s] (b_sbd T) (b1 ++ b2) = [rowmajor (lens L1) b1; rowmajor (lens L1) b2]).
      { intros b1 b2 H1 H2. unfold grouped. rewrite !U1 by (rewrite ?SP, ?app_length; unfold lens; rewrite ?map_length; lia). rewrite SP.
        destruct (@cut _ (lens L1) (lens L1)) as (-> & ->); [unfold lens; rewrite map_length; exact len1|]. destruct (@cut _ b1 b2 H1) as (-> & ->). reflexivity. }
      assert (LB : forall b, in_range (lens L1) b = true -> length b = s) by (intros b Hb; apply in_range_length in Hb; unfold lens in Hb; rewrite map_length in Hb; congruence).
      assert (IB : forall b1 b2, in_range (lens L1) b1 = true -> in_range (lens L1) b2 = true -> in_range (b_sbd T) (b1 ++ b2) = true).
      { intros b1 b2 H1 H2. rewrite SP, IndexProofs.in_range_app by (apply in_range_length; exact H1). rewrite H1, H2. reflexivity. }
      split.
      - intros b1 b2 H1 H2. rewrite <- (RG5 _ (IB b1 b2 H1 H2)), GR by (apply LB; assumption). reflexivity.
      - assert (FR : forall a x, a < length l -> x < nth a l 0 -> exists b o, in_range (lens L1) b = true /\ in_range (pick 0 L1 b) o = true /\ a = rowmajor (lens L1) b /\ x = rowmajor (pick 0 L1 b) o /\ fr a x = place L1 b o).
        { intros a x Ha Hx. rewrite merged_len in Ha. pose proof (@unrank_in_range _ _ Ha) as Hb. pose proof (@rowmajor_unrank _ _ Ha) as Eb. rewrite <- Eb, merged_nth in Hx by exact Hb.
          exists (unrank (lens L1) a), (unrank (pick 0 L1 (unrank (lens L1) a)) x). split; [exact Hb|]. split; [apply unrank_in_range; exact Hx|]. split; [auto|]. split; [symmetry; apply rowmajor_unrank; exact Hx|reflexivity]. }
        intros a x c y Ha Hx Hc Hy. destruct (FR a x Ha Hx) as (b1 & o1 & B1 & O1 & -> & -> & ->). destruct (FR c y Hc Hy) as (b2 & o2 & B2 & O2 & -> & -> & ->).
        assert (LO : forall b o, in_range (lens L1) b = true -> in_range (pick 0 L1 b) o = true -> length (pick 0 L1 b) = s /\ length o = s).
        { intros b o Hb Ho. apply in_range_length in Ho. rewrite Ho, pick_length by (rewrite (LB _ Hb); congruence). auto. }
        assert (PT : pick 0 (legs T) (b1 ++ b2) = pick 0 L1 b1 ++ pick 0 L1 b2) by (rewrite LT; apply pick_app; rewrite (LB _ B1); congruence).
        destruct (LO _ _ B1 O1) as (Z1 & Z2). destruct (LO _ _ B2 O2) as (Z3 & Z4).
        assert (IO : in_range (pick 0 (legs T) (b1 ++ b2)) (o1 ++ o2) = true) by (rewrite PT, IndexProofs.in_range_app by congruence; rewrite O1, O2; reflexivity).
        rewrite <- place_app by (rewrite ?(LB _ B1); congruence). rewrite <- LT. rewrite (proj2 FD _ _ (IB _ _ B1 B2) IO). rewrite <- (RG6 _ _ (IB _ _ B1 B2) IO). rewrite GR by (apply LB; assumption).
        f_equal. unfold grouped. rewrite PT, !U1 by (rewrite app_length; lia). destruct (@cut _ (pick 0 L1 b1) (pick 0 L1 b2) Z1) as (-> & ->). destruct (@cut _ o1 o2 Z2) as (-> & ->). reflexivity.
    Qed.

    Lemma fr_spec a x : a < length l -> x < nth a l 0 -> exists b o, in_range (lens L1) b = true /\ in_range (pick 0 L1 b) o = true /\ a = rowmajor (lens L1) b /\ x = rowmajor (pick 0 L1 b) o /\ fr a x = place L1 b o.
    Proof.
      intros Ha Hx. rewrite merged_len in Ha. pose proof (@unrank_in_range _ _ Ha) as Hb. pose proof (@rowmajor_unrank _ _ Ha) as Eb. rewrite <- Eb, merged_nth in Hx by exact Hb.
      exists (unrank (lens L1) a), (unrank (pick 0 L1 (unrank (lens L1) a)) x). split; [exact Hb|]. split; [apply unrank_in_range; exact Hx|]. split; [auto|]. split; [symmetry; apply rowmajor_unrank; exact Hx|reflexivity].
    Qed.
    Lemma fr_inj a x a' x' : a < length l -> x < nth a l 0 -> a' < length l -> x' < nth a' l 0 -> fr a x = fr a' x' -> a = a' /\ x = x'.
    Proof.
      intros H1 H2 H3 H4 E. destruct (fr_spec H1 H2) as (b & o & B1 & B2 & -> & -> & F1). destruct (fr_spec H3 H4) as (b' & o' & B1' & B2' & -> & -> & F1').
      destruct (place_spec _ _ _ B1 B2) as (_ & P1 & P2). destruct (place_spec _ _ _ B1' B2') as (_ & P1' & P2'). rewrite F1, F1' in E. rewrite <- E in P1', P2'. assert (Eb : b' = b) by congruence. assert (Eo : o' = o) by congruence. rewrite Eb, Eo. split; reflexivity.
    Qed.
    Lemma fr_carries a x : a < length l -> x < nth a l 0 -> index_carries (firstn s (blegs T)) (fr a x) (nth a qs e).
    Proof.
      intros H1 H2. destruct sq_legs as (_ & _ & _ & _ & EQ & _). destruct (fr_spec H1 H2) as (b & o & B1 & B2 & -> & -> & ->). rewrite <- EQ, merged_qnth by (rewrite EQ; exact B1). rewrite (proj1 (square_first SQ)).
      replace L with (combine L1 Q1); [apply index_place; auto|]. unfold L1, Q1. clear. induction L as [|(a, b) m IH]; [reflexivity|]. cbn. rewrite IH. reflexivity.
    Qed.

    Variable deigh : bool -> dense R -> dense R * dense R.
    Hypothesis NB : b_blocks T <> [].
    Hypothesis HD : hermitian (sizes L) D.
    Hypothesis SB : symmetric_blocks s T.
    Hypothesis CO : columns_in_order s T.
    Hypothesis FS : first_sections s T.
    Hypothesis FQ : qop G (first_quantity s T) (first_quantity s T) = e.
    Hypothesis HC : correct deigh s T D true.
    Theorem eigh_split_ok : exists d U k, eigh_split deigh T s = Ok (d, U) /\ eigen_decomposition s T D d U k /\ section_eigenvalues s T D (fun M => fst (deigh true M)) d (length (fst k)) /\ (diagonal_blocks s T -> bsz G k = prod_list (sizes L)).
    Proof.
      destruct squared as (M0 & EM & VM & NM & HL & HQ & HR & ST & ENT). destruct sq_legs as (LT & QT & len1 & qlen1 & NQ1 & RK & SP).
      destruct (@cut _ Q1 (map (map (qinv G)) Q1) qlen1) as (_ & SQ2). rewrite <- QT in SQ2. destruct (@cut _ L1 L1 len1) as (_ & SL2). rewrite <- LT in SL2.
      assert (NQ2 : map (@length G) (map (map (qinv G)) Q1) = lens L1) by (rewrite map_map, <- NQ1; apply map_ext; intros; apply map_length).
      assert (SN : b_sbd M0 = [prod_list (lens L1); prod_list (lens L1)]) by (rewrite <- (legs_lens (proj1 VM)), HL; cbn [lens map]; rewrite merged_len; reflexivity).
      assert (INV : forall i j, stores M0 [i; j] -> exists b1 b2, in_range (lens L1) b1 = true /\ in_range (lens L1) b2 = true /\ length b1 = s /\ length b2 = s /\ i = rowmajor (lens L1) b1 /\ j = rowmajor (lens L1) b2 /\ stores T (b1 ++ b2)).
      { intros i j H. destruct (stored_same VM HL HQ HR H) as (_ & Hi & Hj). rewrite merged_len in Hi, Hj. pose proof (@unrank_in_range _ _ Hi) as B1. pose proof (@unrank_in_range _ _ Hj) as B2. pose proof (@rowmajor_unrank _ _ Hi) as E1. pose proof (@rowmajor_unrank _ _ Hj) as E2.
        exists (unrank (lens L1) i), (unrank (lens L1) j). pose proof (in_range_length _ _ B1) as LB1. pose proof (in_range_length _ _ B2) as LB2. unfold lens in LB1, LB2. rewrite map_length in LB1, LB2. rewrite <- E1, <- E2 in H. apply ST in H; auto.
        split; [exact B1|]. split; [exact B2|]. split; [unfold lens; congruence|]. split; [unfold lens; congruence|]. auto. }
      assert (SYM : forall i j, stores M0 [i; j] -> stores M0 [j; i]).
      { intros i j H. destruct (INV i j H) as (b1 & b2 & B1 & B2 & E1 & E2 & -> & -> & H'). apply ST; auto. }
      assert (ORD : forall i j i' j', stores M0 [i; j] -> stores M0 [i'; j'] -> j' < j -> nth j' (map (qinv G) qs) e = nth j (map (qinv G) qs) e -> exists i0, i0 <= i /\ stores M0 [i0; j']).
      { intros i j i' j' H1 H2 HLt EQ. destruct (INV _ _ H1) as (b1 & b2 & B1 & B2 & E1 & E2 & -> & -> & H1'). destruct (INV _ _ H2) as (b1' & b2' & B1' & B2' & E1' & E2' & -> & -> & H2').
        rewrite merged_dual in EQ. rewrite <- NQ2 in EQ. rewrite !merged_qnth in EQ by (rewrite NQ2; assumption).
        destruct (CO b1 b2 b1' b2' E1 E2 E1' E2' H1' H2') as (b0 & L0 & O0 & H0).
        - apply (rowmajor_mono _ _ _ B2' B2). exact HLt.
        - unfold block_quantity. rewrite SQ2. destruct (@cut _ b1 b2 E1) as (_ & ->). destruct (@cut _ b1' b2' E1') as (_ & ->). exact EQ.
        - assert (B0 : in_range (lens L1) b0 = true).
          { destruct H0 as (v & Hv). assert (AL : allowed T (b0 ++ b2')) by (apply (proj1 (proj2 V)) with (t := v); exact Hv). destruct AL as (AL & _). rewrite SP, IndexProofs.in_range_app in AL by (unfold lens; rewrite map_length; congruence). apply andb_true_iff in AL. apply AL. }
          exists (rowmajor (lens L1) b0). split; [|apply ST; auto]. destruct O0 as [->|O0]; [lia|]. apply (rowmajor_mono _ _ _ B0 B1) in O0. lia. }
      assert (Z : in_range (lens L1) (zeros (length (lens L1))) = true).
      { assert (HP : forall n, In n (lens L1) -> 0 < n) by (intros n Hn; apply (nonempty_sbd (proj1 V) N); rewrite SP; apply in_or_app; left; exact Hn). revert HP. clear. generalize (lens L1). intros l0. induction l0 as [|n l0 IH]; intros HP; [reflexivity|]. cbn. rewrite (proj2 (Nat.ltb_lt 0 n) (HP n (or_introl eq_refl))). apply IH. intros m Hm. apply HP. right. exact Hm. }
      assert (HF : 0 < nth 0 l 0).
      { pose proof (merged_nth L1 _ Z) as EZ. rewrite rowmajor_zeros in EZ. rewrite EZ. clear EZ. unfold first_sections in FS. rewrite SL2 in FS. revert FS. clear. unfold lens. generalize L1. intros L0. induction L0 as [|a L0 IH]; intros FS; [cbn; lia|]. cbn [map length zeros repeat pick]. change (0 < nth 0 a 0 * prod_list (pick 0 L0 (zeros (length (map (@length nat) L0))))).
        apply Nat.mul_pos_pos; [apply FS; left; reflexivity|]. apply IH. intros x Hx. apply FS. right. exact Hx. }
      assert (H0 : qop G (nth 0 qs e) (nth 0 qs e) = e).
      { assert (EF : first_quantity s T = nth 0 (map (qinv G) qs) e).
        { rewrite merged_dual. pose proof (@merged_qnth G (map (map (qinv G)) Q1) (zeros (length (lens L1))) ltac:(rewrite NQ2; exact Z)) as EZ. rewrite NQ2, rowmajor_zeros in EZ. rewrite EZ. clear EZ. unfold first_quantity. rewrite SQ2. f_equal. rewrite <- NQ2. clear. generalize (map (map (qinv G)) Q1). intros l0. induction l0 as [|a l0 IH]; [reflexivity|]. cbn. f_equal. exact IH. }
        pose proof FQ as FQ'. rewrite EF, nth_inv, <- qinv_op in FQ'. rewrite <- (qinv_inv G (qop G _ _)), FQ'. apply qinv_e. }
      assert (PP : forall M, taken M0 M -> principal s T D M) by (apply (@taken_principal G R M0 l qs VM HL HQ HR SYM ORD T D s fr fr_carries fr_inj ENT)).
      assert (TP : forall M, taken_split s T M -> principal s T D M) by (intros M (rT & ER & HT); rewrite EM in ER; injection ER as <-; auto).
      assert (RK0 : b_rank M0 = 2) by (rewrite <- (legs_length (proj1 VM)), HL; reflexivity).
      destruct (dense_of VM) as (D0 & FD0).
      destruct (@svd_matrix_pieces G R (twice deigh true) M0 D0 VM NM RK0 FD0 (fun M _ H => proj1 (twice_ok SQ HD HC (PP M H)))) as (rU & d & rW & k & E & DC0 & _).
      pose proof DC0 as (VU & _ & VW & LK & _ & _ & _ & _ & _ & BU & _ & BW & RU & _ & RW & _).
      assert (B0 : blegs M0 = [(l, qs); (l, map (qinv G) qs)]) by (unfold blegs; rewrite HL, HQ; reflexivity). rewrite B0 in BU, BW. cbn in BU, BW. rewrite HR in RU.
      destruct (@eigh_svd G R M0 l qs VM HL HQ HR SYM ORD NM HF H0 deigh true rU d rW k E VU VW BU BW RU RW) as (EE & -> & TOT).
      assert (Hs2 : 0 < s < b_rank T) by lia.
      destruct (@svd_split_pieces G R (twice deigh true) T D s V N Hs2 NB FD (fun M _ H => proj1 (twice_ok SQ HD HC (TP M H)))) as (U & d' & W & k' & ES & DC & HI & HRe & HV).
      specialize (HI (fun M _ H => proj1 (proj2 (twice_ok SQ HD HC (TP M H))))). specialize (HRe (fun M _ H => proj2 (proj2 (twice_ok SQ HD HC (TP M H))))).
      pose proof DC as (VU' & _ & VW' & _ & _ & _ & _ & _ & _ & BU' & _ & BW' & RU' & _ & RW' & _).
      unfold svd_split in ES. rewrite EM in ES. cbn [rbind] in ES. rewrite E in ES. cbn [rbind] in ES.
      destruct (shape_from T (repeat (-1)%Z s ++ repeat 0%Z (b_rank T - s))) as [S1| |] eqn:E1; try discriminate. cbn [rbind] in ES.
      destruct (shape_from rU [0; -1]%Z) as [S3| |] eqn:E3; try discriminate. cbn [rbind] in ES.
      destruct (shape_from_list [S1; S3]) as [O1| |] eqn:E4; try discriminate. cbn [rbind] in ES.
      destruct (reshape_as false rU O1) as [U0| |] eqn:E5; try discriminate. cbn [rbind] in ES.
      destruct (shape_from T (repeat 0%Z s ++ repeat (-1)%Z (b_rank T - s))) as [S2| |] eqn:E2; try discriminate. cbn [rbind] in ES.
      destruct (shape_from_list [inverse_cvals S2; S3]) as [O2| |] eqn:E6; try discriminate. cbn [rbind] in ES.
      destruct (reshape_as false rU O2) as [W0| |] eqn:E7; try discriminate. cbn [rbind] in ES. injection ES as -> <- ->.
      exists d, U, k'. split.
      { unfold eigh_split. rewrite EM. cbn [rbind]. rewrite EE. cbn [rbind]. rewrite E1. cbn [rbind]. rewrite E3. cbn [rbind]. rewrite E4. cbn [rbind]. rewrite E5. reflexivity. }
      assert (WU : W = U).
      { assert (RS : forall X X', reshape_as false rU X = Ok X' -> b_rank X' = b_rank X /\ b_sbd X' = b_sbd X /\ b_ss X' = b_ss X /\ b_cv X' = b_cv X).
        { intros X X' EX. unfold reshape_as in EX. destruct (negb _); try discriminate. destruct (compatible_c_vals rU X) as [[]| |]; cbn [rbind negb] in EX; try discriminate. destruct (compatible_block_size rU X) as [[]| |]; cbn [rbind negb] in EX; try discriminate.
          destruct (rmapM _ _) as [bl| |]; cbn [rbind] in EX; try discriminate. unfold make in EX. destruct (check_tensor _) as [[]| |] in EX; cbn [rbind] in EX; try discriminate. injection EX as <-. cbn. auto. }
        destruct (RS _ _ E5) as (u1 & u2 & u3 & u4). destruct (RS _ _ E7) as (w1 & w2 & w3 & w4).
        destruct (square_first SQ) as (F1 & F2). rewrite F1 in BU'. rewrite F2 in BW'. rewrite map_map in BW'. rewrite (map_ext _ (fun x => x) (@bdual_dual G)), map_id in BW'.
        destruct (legs_both VU') as (x1 & x2). destruct (legs_both VW') as (y1 & y2). rewrite BU' in x1, x2. rewrite BW' in y1, y2.
        destruct (@same_fields G R U W (proj1 VU') (proj1 VW')) as (z1 & z2 & z3 & z4); try congruence. rewrite (@reshape_as_same rU O1 O2) in E5 by congruence. congruence. }
      subst W. split; [apply (conclude SQ DC HI HRe)|]. split.
      2:{ intros DB. assert (EK : fst k' = fst k) by (destruct DC as (_ & _ & _ & _ & _ & _ & _ & _ & _ & _ & Bd & _); destruct DC0 as (_ & _ & _ & _ & _ & _ & _ & _ & _ & _ & Bd0 & _); rewrite Bd in Bd0; unfold neutral_leg in Bd0; congruence).
        unfold bsz at 1. rewrite EK, TOT.
        - rewrite merged_total. unfold L1, tots. rewrite map_map. reflexivity.
        - intros i Hi. rewrite merged_len in Hi. rewrite <- (@rowmajor_unrank _ _ Hi). pose proof (@unrank_in_range _ _ Hi) as HB. apply ST; auto. pose proof (in_range_length _ _ HB) as LB. unfold lens in LB at 2. rewrite map_length in LB. apply DB; [congruence|]. split.
          + rewrite SP, IndexProofs.in_range_app by (apply in_range_length; exact HB). rewrite HB. reflexivity.
          + rewrite QT, pick_app by congruence. rewrite qprod_app, (proj2 (proj2 SQ)). rewrite pick_dual by (rewrite NQ1; exact HB). apply qop_inv_r. }
      intros c Hc. destruct (HV c Hc) as (M & _ & HT & HS & HIn). exists M. split; [apply TP; exact HT|]. split; [exact HS|].
      unfold twice in HIn. destruct (deigh true M). exact HIn.
    Qed.
  End S.
End E.

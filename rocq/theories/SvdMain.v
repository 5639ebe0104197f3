(** The block singular value decomposition of a matrix: structure of the factors and their product, block by block. *)
From Verif Require Import Base Quantity QuantityProofs FlatMap SpecFlatMap FlatMapProofs Ring Index SpecIndex Dense IndexProofs BTensor SpecBTensor LegsProofs
  BTensorProofs BTensorThms BTensorThms2 BTensorArith ArithProofs Tensordot SpecTensordot TensordotProofs TensordotThms SpecReshape View SpecView ViewProofs ViewThms
  Chain SpecChain SpecSector SpecSvd Edges SpecEdges EdgesProofs EdgesBlock BSvd SvdPieces SvdProofs SvdThms.
From Coq Require Import Permutation.
Set Implicit Arguments.

Lemma F2_len A B (P : A -> B -> Prop) l m : Forall2 P l m -> length l = length m.
Proof. induction 1; cbn; auto. Qed.

Section Svd.
  Variable G : abgroup.
  Variable R : ring.
  Add Ring Rring : (ring_th R).
  Notation t := (btensor G R).
  Notation entry := (list nat * dense R)%type.
  Notation "'e'" := (qe G).
  Notation stores := SpecReshape.stored.
  Notation piece := (dense R * list slice * list slice)%type.

  (** The vector of singular values. *)
  Fixpoint put_diag (b : nat) (ds : list (dense R)) (S : t) : result t :=
    match ds with [] => Ok S | D :: ds' => do S' <- block_assign S [b] D ; put_diag (Datatypes.S b) ds' S' end.
  Lemma put_diag_ok kl ds : forall b (S : t), valid S -> legs S = [kl] -> (forall q0, In q0 (concat (qlegs S)) -> q0 = e) -> b_rule S = e ->
    (forall c D, nth_error ds c = Some D -> b + c < length kl /\ dsh D = [nth (b + c) kl 0]) ->
    exists S', put_diag b ds S = Ok S' /\ same_meta S S' /\ valid S' /\
      (forall c D, nth_error ds c = Some D -> assoc leqb [b + c] (b_blocks S') = Some D) /\
      (forall k, (forall c, c < length ds -> k <> [b + c]) -> assoc leqb k (b_blocks S') = assoc leqb k (b_blocks S)).
  Proof.
    induction ds as [|D ds IH]; intros b S V L Q RU H.
    - exists S. split; [reflexivity|]. split; [repeat split|]. split; [exact V|]. split; [intros [|c]; discriminate|reflexivity].
    - destruct (H 0 D eq_refl) as (H1 & H2). rewrite Nat.add_0_r in *.
      assert (AL : allowed S [b]).
      { unfold allowed. rewrite <- (legs_lens (proj1 V)), L. split; [cbn; rewrite andb_true_r; apply Nat.ltb_lt; exact H1|]. rewrite RU.
        pose proof (qlegs_lens (proj1 V)) as NL. rewrite <- (legs_lens (proj1 V)), L in NL. destruct (qlegs S) as [|q1 [|? ?]]; try discriminate. cbn in *. rewrite qop_e_r. apply Q. rewrite app_nil_r. apply nth_In. injection NL as ->. exact H1. }
      destruct (@block_assign_spec G R S [b] D V AL) as (S1 & E1 & M1 & V1 & A1); [rewrite L; exact H2|].
      pose proof M1 as (a1 & a2 & a3 & a4 & a5).
      destruct (IH (Datatypes.S b) S1 V1) as (S2 & E2 & M2 & V2 & A2 & B2).
      { unfold legs in *. rewrite <- a3, <- a4. exact L. } { unfold qlegs in *. rewrite <- a3, <- a5. exact Q. } { congruence. }
      { intros c D' Hc. replace (Datatypes.S b + c) with (b + Datatypes.S c) by lia. apply H. exact Hc. }
      exists S2. split; [cbn [put_diag]; rewrite E1; exact E2|]. split. { destruct M2 as (b1 & b2 & b3 & b4 & b5). repeat split; congruence. }
      split; [exact V2|]. split.
      + intros [|c] D' Hc.
        * injection Hc as <-. rewrite Nat.add_0_r, B2, A1, leqb_refl; [reflexivity|]. intros c _ C. injection C as C. lia.
        * replace (b + Datatypes.S c) with (Datatypes.S b + c) by lia. apply A2. exact Hc.
      + intros k Hk. rewrite B2, A1.
        * destruct (leqb [b] k) eqn:EK; [|reflexivity]. apply leqb_eq in EK. exfalso. apply (Hk 0); [cbn; lia|]. rewrite Nat.add_0_r. congruence.
        * intros c Hc C. apply (Hk (Datatypes.S c)); [cbn; lia|]. rewrite C. f_equal. lia.
  Qed.

  Variable dsvd : dense R -> dense R * dense R * dense R.
  Definition fU (p : piece) : dense R * list slice := let '(M, rows, cols) := p in (fst (fst (dsvd M)), rows).
  Definition fV (p : piece) : dense R * list slice := let '(M, rows, cols) := p in (snd (dsvd M), cols).
  Definition fD (p : piece) : dense R := let '(M, rows, cols) := p in snd (fst (dsvd M)).
  Lemma joint_ok (ps : list piece) : forall b (U d V U' d' V' : t), put_factor b (map fU ps) U = Ok U' -> put_factor b (map fV ps) V = Ok V' -> put_diag b (map fD ps) d = Ok d' ->
    rfold (fun '(bi, U, d, V) '(M, rows, cols) =>
        let '(bU, bD, bV) := dsvd M in
        do U <- put_rows bU bi rows U ;
        do V <- put_rows bV bi cols V ;
        do d <- block_assign d [bi] bD ;
        Ok (S bi, U, d, V)) ps (b, U, d, V) = Ok (b + length ps, U', d', V').
  Proof.
    induction ps as [|((M, rows), cols) ps IH]; intros b U d V U' d' V' HU HV HD.
    - cbn in *. injection HU as ->. injection HV as ->. injection HD as ->. rewrite Nat.add_0_r. reflexivity.
    - cbn [map put_factor put_diag fU fV fD] in HU, HV, HD. cbn [rfold]. destruct (dsvd M) as ((bU, bD), bV). cbn [fst snd] in *.
      destruct (put_rows bU b rows U) as [U1| |]; cbn [rbind] in *; try discriminate.
      destruct (put_rows bV b cols V) as [V1| |]; cbn [rbind] in *; try discriminate.
      destruct (block_assign d [b] bD) as [d1| |]; cbn [rbind] in *; try discriminate.
      rewrite (IH _ _ _ _ _ _ _ HU HV HD). cbn [length]. do 4 f_equal. lia.
  Qed.

  Lemma neutral_shape_ok (S : t) L Q r : shape_is S L Q r -> exists S', neutral_shape_ S = Ok S' /\ shape_is S' L (map (map (fun _ => e)) Q) e.
  Proof.
    intros ((M & _ & _) & B & E1 & E2 & E3). unfold neutral_shape_, is_empty. rewrite B. eexists. split; [reflexivity|].
    assert (QQ : qlegs (@mkB G R e (b_rank S) (b_sbd S) (b_ss S) (map (fun _ => e) (b_cv S)) []) = map (map (fun _ => e)) Q).
    { unfold qlegs. cbn [b_sbd b_cv]. rewrite unpack_map. fold (qlegs S). rewrite E2. reflexivity. }
    split; [|split; [reflexivity|split; [exact E1|split; [exact QQ|reflexivity]]]].
    destruct M as (M1 & M2 & M3). split; [repeat split; cbn; rewrite ?map_length; auto|]. split; [intros k v []|constructor].
  Qed.
  Lemma leg_shape r (l : list nat) (q0 : list G) : length q0 = length l -> exists S, make (@mkB G R r 1 [length l] l q0 []) = Ok S /\ shape_is S [l] [q0] r.
  Proof.
    intros H. destruct (@from_legs G R r 1 [l] [q0] eq_refl) as (MM & LL & QQ & VV); [cbn; congruence|]. cbn [lens map concat] in *. rewrite !app_nil_r in *.
    eexists. split; [apply valid_make; exact VV|]. split; [exact VV|]. split; [reflexivity|]. split; [exact LL|]. split; [exact QQ|reflexivity].
  Qed.

  (** The pieces of a tensor. *)
  Definition compacted (T : t) (p : piece) : Prop := exists ps, compact_dense T = Ok ps /\ In p ps.
  Section T.
    Variable T : t.
    Variables (lr lc : list nat) (qr qc : list G).
    Hypothesis V : valid T.
    Hypothesis HL : legs T = [lr; lc].
    Hypothesis HQ : qlegs T = [qr; qc].
    Hypothesis HN : nonempty T.
    Notation pok := (piece_ok T lr lc qr qc).
    (** Sizes of the sections of the new dimension. *)
    Definition msize (p : piece) : nat := let '(M, _, _) := p in Nat.min (nth 1 (dsh M) 0) (nth 0 (dsh M) 0).

    Lemma shapes_ok ks ps : Forall2 pok ks ps -> exists U d W, svd_shapes T ps = Ok (U, d, W) /\
      shape_is U [lr; map msize ps] [qr; map snd ks] (b_rule T) /\ shape_is d [map msize ps] [map (fun _ => e) ks] e /\
      shape_is W [lc; map msize ps] [qc; map (fun k => qinv G (snd k)) ks] e.
    Proof.
      intros HP. unfold svd_shapes.
      assert (RQ : rmapM (fun '(_, _, cols) => match cols with [] => UB | (c, _) :: _ => section_conserved_qtt T 1 c end) ps = Ok (map snd ks)).
      { clear HN. induction HP as [|k ((M, rows), cols) ks ps HP _ IH]; [reflexivity|]. cbn [rmapM map]. destruct HP as (m & n & _ & _ & TC & _ & KC & (_ & j & _ & Hj) & _).
        destruct cols as [|(c, s) cols]; [destruct Hj|]. destruct (proj1 (KC c) (or_introl eq_refl)) as (i & ((v & Hv) & K1 & K2)).
        destruct (@stored_pair G R T lr lc qr qc V HL HQ _ _ Hv) as (i' & j' & EQ & Hi & Hj' & _). injection EQ as <- <-.
        rewrite section_qtt_nth; [|apply V|rewrite (T_rank V HL); lia|rewrite (T_sbd V HL); exact Hj'].
        rewrite HQ. cbn [nth rbind]. rewrite K2, IH. reflexivity. }
      rewrite RQ. cbn [rbind]. assert (LP : length ks = length ps) by (eapply F2_len; eauto).
      change (map (fun '(M, _, _) => Nat.min (nth 1 (dsh M) 0) (nth 0 (dsh M) 0)) ps) with (map msize ps).
      assert (L1 : length ps = length (map msize ps)) by (rewrite map_length; reflexivity). rewrite L1.
      destruct (@leg_shape e (map msize ps) (map (qinv G) (map snd ks))) as (lD & ElD & HlD); [rewrite !map_length; exact LP|]. rewrite ElD. cbn [rbind].
      destruct (@leg_shape e (map msize ps) (map snd ks)) as (rD & ErD & HrD); [rewrite !map_length; exact LP|]. rewrite ErD. cbn [rbind].
      assert (N1 : 0 < sum_list lr) by (apply HN; rewrite HL; left; reflexivity). assert (N2 : 0 < sum_list lc) by (apply HN; rewrite HL; right; left; reflexivity).
      assert (VW : forall p, pat_ok [lr; lc] p -> exists r S, shape_from T (zpat p) = Ok S /\ shape_is S (keep p [lr; lc]) (keep p [qr; qc]) r).
      { intros p Hp. destruct (@rule_exists G R T p (proj1 V)) as (r & Hr); [rewrite HL; exact Hp|]. exists r. destruct (view_shape_ok (proj1 V) HN Hr) as (S & E & H). exists S. rewrite HL, HQ in H. auto. }
      destruct (VW [Some 0; Some 0]) as (r0 & S0 & E0 & H0); [cbn; auto|]. destruct (VW [None; Some 0]) as (r1 & S1 & E1 & H1); [cbn; auto|]. destruct (VW [Some 0; None]) as (r2 & S2 & E2 & H2); [cbn; auto|].
      cbn [keep] in H0, H1, H2. change [0; 0]%Z with (zpat [Some 0; Some 0]). change [-1; 0]%Z with (zpat [None; Some 0]). change [0; -1]%Z with (zpat [Some 0; None]).
      rewrite E0. cbn [rbind].
      assert (SI : forall (A : t) L Q r, shape_is A L Q r -> legs A = L /\ qlegs A = Q /\ b_rule A = r) by (intros A L Q r (_ & _ & ?); assumption).
      destruct (SI _ _ _ _ H0) as (l0 & q0 & _). destruct (SI _ _ _ _ H1) as (l1 & q1 & _). destruct (SI _ _ _ _ H2) as (l2 & q2 & _). destruct (SI _ _ _ _ HlD) as (ll & ql & _). destruct (SI _ _ _ _ HrD) as (lr' & qr' & _).
      destruct (@shape_list2 G R S0 rD (shape_is_meta H0) (shape_is_meta HrD)) as (d0 & Ed & Hd). rewrite Ed. cbn [rbind].
      rewrite l0, q0, lr', qr' in Hd. cbn [app] in Hd. destruct (neutral_shape_ok Hd) as (d & Ed' & Hd'). rewrite Ed'. cbn [rbind].
      rewrite E1. cbn [rbind]. destruct (@shape_list2 G R S1 rD (shape_is_meta H1) (shape_is_meta HrD)) as (U0 & EU & HU). rewrite EU. cbn [rbind]. rewrite l1, q1, lr', qr' in HU. cbn [app] in HU.
      unfold set_selection_rule_ at 1, is_empty at 1. rewrite (proj1 (proj2 HU)). cbn [rbind].
      destruct (neutral_shape_ok H0) as (s0 & Es0 & Hs0). rewrite Es0. cbn [rbind]. rewrite E2. cbn [rbind].
      destruct (@shape_list_ok G R [s0; S2; lD]) as (W & EW & HW); [discriminate|constructor; [apply (shape_is_meta Hs0)|constructor; [apply (shape_is_meta H2)|constructor; [apply (shape_is_meta HlD)|constructor]]]|].
      rewrite EW. cbn [rbind]. cbn [map concat] in HW. destruct (SI _ _ _ _ Hs0) as (ls & qs & _). rewrite ls, qs, l2, q2, ll, ql in HW. cbn [map app] in HW.
      unfold set_selection_rule_, is_empty. rewrite (proj1 (proj2 HW)). cbn [rbind].
      do 3 eexists. split; [reflexivity|]. split; [apply (rule_shape (b_rule T) HU)|]. split.
      - cbn [map] in Hd'. rewrite map_map in Hd'. exact Hd'.
      - rewrite map_map in HW. apply (rule_shape e HW).
    Qed.

    (** All the data of the decomposition. *)
    Lemma piece_nth ks ps c k p : Forall2 pok ks ps -> nth_error ps c = Some p -> nth_error ks c = Some k -> pok k p.
    Proof.
      intros H. revert c. induction H as [|k0 p0 ks ps H0 H IH]; intros [|c] E1 E2; try discriminate; cbn in *; [injection E1 as <-; injection E2 as <-; exact H0|eapply IH; eauto].
    Qed.
    Lemma nth_some A (l : list A) c : c < length l -> exists x, nth_error l c = Some x.
    Proof. intros H. destruct (nth_error l c) eqn:E; [eauto|]. apply nth_error_None in E. lia. Qed.
    Lemma msize_nth ps c M rows cols : nth_error ps c = Some (M, rows, cols) -> nth c (map msize ps) 0 = Nat.min (nth 1 (dsh M) 0) (nth 0 (dsh M) 0).
    Proof. intros H. apply (map_nth_error msize) in H. apply nth_error_nth with (d := 0) in H. exact H. Qed.

    (** The matrices handed to the dense decomposition. *)
    Definition piece_matrix (M : dense R) : Prop := exists k rows cols, pok k (M, rows, cols) /\ compacted T (M, rows, cols).
    Notation "'sum' x < n , y" := (sumf R (fun x => y) (seq 0 n)) (at level 200, x name, n at level 69, y at level 200).
    Lemma sum_support n (f : nat -> R) l : NoDup l -> (forall i, In i l -> i < n) -> (forall i, i < n -> ~ In i l -> f i = rz) -> sumf R f (seq 0 n) = sumf R f l.
    Proof.
      intros ND HI HZ. pose (inl := fun i => existsb (Nat.eqb i) l).
      assert (Hin : forall i, inl i = true <-> In i l).
      { intros i. unfold inl. rewrite existsb_exists. split; [intros (x & Hx & Ex); apply Nat.eqb_eq in Ex; congruence|intros H; exists i; split; [exact H|apply Nat.eqb_refl]]. }
      assert (E : forall m, (forall i, In i m -> i < n) -> sumf R f m = sumf R f (filter inl m)).
      { induction m as [|x m IH]; intros Hm; [reflexivity|]. cbn [filter]. rewrite sumf_cons, (IH (fun i H => Hm i (or_intror H))). destruct (inl x) eqn:Ex; [reflexivity|].
        rewrite (HZ x); [ring|apply Hm; left; reflexivity|]. intros C. apply Hin in C. congruence. }
      rewrite E by (intros i Hi; apply in_seq in Hi; lia). apply sumf_perm. apply NoDup_Permutation; [apply NoDup_filter, seq_NoDup|exact ND|].
      intros i. rewrite filter_In, in_seq, Hin. split; [tauto|]. intros H. split; [|exact H]. specialize (HI i H). lia.
    Qed.

    Record decomposed (U d W : t) (kl : list nat) (kq : list G) : Prop := {
      dc_V : valid U /\ valid d /\ valid W;
      dc_U : legs U = [lr; kl] /\ qlegs U = [qr; kq] /\ b_rule U = b_rule T;
      dc_d : legs d = [kl] /\ qlegs d = [map (fun _ => e) kq] /\ b_rule d = e;
      dc_W : legs W = [lc; kl] /\ qlegs W = [map (qinv G) qc; kq] /\ b_rule W = e;
      dc_k : length kq = length kl /\ NoDup kq;
      dc_b : (length kl <= length lr /\ length kl <= length lc) /\ sum_list kl <= sum_list lr /\ sum_list kl <= sum_list lc;
      dc_T : forall a b x y, a < length lr -> b < length lc -> x < nth a lr 0 -> y < nth b lc 0 ->
        bentry T [a; b] [x; y] = sum c < length kl, sum z < nth c kl 0, rmul (rmul (bentry U [a; c] [x; z]) (bentry d [c] [z])) (rconj (bentry W [b; c] [y; z]));
    }.
    Definition iso_blocks (l kl : list nat) (U : t) : Prop := forall c c' z z', c < length kl -> c' < length kl -> z < nth c kl 0 -> z' < nth c' kl 0 ->
      (sum a < length l, sum x < nth a l 0, rmul (rconj (bentry U [a; c] [x; z])) (bentry U [a; c'] [x; z'])) = if (c =? c') && (z =? z') then ro else rz.

    Lemma factor_iso l kl fs (U : t) (HG : forall c F rows, nth_error fs c = Some (F, rows) -> exists m, dsh F = [m; nth c kl 0] /\ tiling (fun i => nth i l 0) rows m /\ (forall i, In i (map fst rows) -> i < length l) /\ orthonormal m (nth c kl 0) F) :
      length fs = length kl ->
      (forall c F rows i o s x y, nth_error fs c = Some (F, rows) -> In (i, (o, s)) rows -> bentry U [i; c] [x; y] = dv F [o + x; y]) ->
      (forall c F rows i o, nth_error fs c = Some (F, rows) -> ~ In i (map fst rows) -> bentry U [i; c] o = rz) ->
      (forall c F rows c' F' rows' i, nth_error fs c = Some (F, rows) -> nth_error fs c' = Some (F', rows') -> In i (map fst rows) -> In i (map fst rows') -> c = c') -> iso_blocks l kl U.
    Proof.
      intros LF HA HB HD c c' z z' Hc Hc' Hz Hz'. rewrite <- LF in Hc, Hc'. destruct (nth_some fs Hc) as ((F, rows) & EF). destruct (nth_some fs Hc') as ((F', rows') & EF').
      destruct (c =? c') eqn:EC; cbn [andb].
      - apply Nat.eqb_eq in EC. subst c'. rewrite EF in EF'. injection EF' as <- <-. destruct (HG c F rows EF) as (m & SF & TF & HL' & OF). rewrite <- (OF z z' Hz Hz').
        rewrite (tiling_sum R _ TF). rewrite (@sum_support (length l) _ (map fst rows)); [|exact (proj1 TF)|exact HL'|].
        + rewrite sumf_map. apply sumf_ext. intros (i, (o, s)) Hi. cbn [fst]. destruct (tiling_len _ _ _ TF Hi) as (-> & _). apply sumf_ext. intros x _.
          rewrite !(HA c F rows i o _ _ _ EF Hi). reflexivity.
        + intros i _ Hi. apply sumf_zero. intros x _. rewrite (HB c F rows i [x; z'] EF Hi). ring.
      - apply sumf_zero. intros a _. apply sumf_zero. intros x _. destruct (in_dec Nat.eq_dec a (map fst rows)) as [H1|H1].
        + rewrite (HB c' F' rows' a [x; z'] EF'); [ring|]. intros H2. apply Nat.eqb_neq in EC. apply EC. eapply HD; eauto.
        + rewrite (HB c F rows a [x; z] EF H1), rconj_0. ring.
    Qed.

    (** Every such matrix holds a stored block, and all those with the same quantity of the column. *)
    Lemma piece_block M : piece_matrix M -> exists i j v, In ([i; j], v) (b_blocks T) /\ i < length lr /\ j < length lc /\
      forall i' j' v', In ([i'; j'], v') (b_blocks T) -> nth j' qc e = nth j qc e -> forall x y, x < nth i' lr 0 -> y < nth j' lc 0 -> exists p, in_range (dsh M) p = true /\ dv M p = bentry T [i'; j'] [x; y].
    Proof.
      intros (k & rows & cols & (m & n & SM & TR & TC & KR & KC & (i & j0 & Hi & _) & VM) & _). destruct (proj1 (KR i) Hi) as (j & (v & Hv) & K1 & K2).
      destruct (@stored_pair G R T lr lc qr qc V HL HQ _ _ Hv) as (i' & j' & EQ & Hi' & Hj' & RU & SV). injection EQ as <- <-. exists i, j, v. do 3 (split; [assumption|]). clear Hi.
      intros i' j' v' Hv' EQ. destruct (@stored_pair G R T lr lc qr qc V HL HQ _ _ Hv') as (a & b & EQ' & _ & _ & RU' & _). injection EQ' as <- <-.
      assert (K2' : nth j' qc e = snd k) by congruence. assert (K1' : nth i' qr e = fst k) by (rewrite <- K1; apply (qop_cancel_r G (nth j qc e)); congruence).
      assert (Hi : In i' (map fst rows)) by (apply KR; exists j'; split; [exists v'; exact Hv'|auto]).
      assert (Hj : In j' (map fst cols)) by (apply KC; exists i'; split; [exists v'; exact Hv'|auto]).
      apply keys_slice in Hi as (o & w & Hi), Hj as (o' & w' & Hj). destruct (tiling_len _ _ _ TR Hi) as (E1 & B1). destruct (tiling_len _ _ _ TC Hj) as (E2 & B2). unfold szr in E1. unfold szc in E2. subst w w'.
      intros x y Hx Hy. exists [o + x; o' + y]. split; [|exact (VM _ _ _ _ _ _ _ _ Hi Hj Hx Hy)]. rewrite SM. cbn. rewrite !(proj2 (Nat.ltb_lt _ _)) by lia. reflexivity.
    Qed.
    Lemma svd_ok : (forall M, piece_matrix M -> thin M (dsvd M)) -> exists U d W kl kq, svd dsvd T = Ok (U, d, W) /\ decomposed U d W kl kq /\
      (forall c, c < length kl -> exists b v, In (b, v) (b_blocks T)) /\ (forall b v, In (b, v) (b_blocks T) -> 0 < length kl) /\
      ((forall M, piece_matrix M -> isometries M (dsvd M)) -> iso_blocks lr kl U /\ iso_blocks lc kl W) /\
      (forall c, c < length kl -> exists M, piece_matrix M /\ assoc leqb [c] (b_blocks d) = Some (snd (fst (dsvd M))) /\ dsh (snd (fst (dsvd M))) = [nth c kl 0]).
    Proof.
      intros HO. destruct (compact_ok V HL HQ) as (ps & ks & EC & ND & HP & HS). destruct (shapes_ok HP) as (U0 & d0 & W0 & ES & HU & Hd & HW).
      assert (CP : forall c p, nth_error ps c = Some p -> compacted T p) by (intros c p Hc; exists ps; split; [exact EC|eapply nth_error_In; exact Hc]).
      assert (LP : length ks = length ps) by (eapply F2_len; eauto).
      set (kl := map msize ps). set (kq := map snd ks).
      assert (LK : length kl = length ps) by apply map_length. assert (LQ : length kq = length ks) by apply map_length.
      assert (PC : forall c M rows cols, nth_error ps c = Some (M, rows, cols) -> exists k, nth_error ks c = Some k /\ pok k (M, rows, cols) /\ nth c kq e = snd k).
      { intros c M rows cols Hc. assert (Lc : c < length ks) by (rewrite LP; apply nth_error_Some; congruence). destruct (nth_some ks Lc) as (k & Hk). exists k. split; [exact Hk|]. split; [eapply piece_nth; eauto|].
        unfold kq. apply (map_nth_error snd) in Hk. apply nth_error_nth with (d := e) in Hk. exact Hk. }
      assert (FA : forall c M rows cols k, nth_error ps c = Some (M, rows, cols) -> pok k (M, rows, cols) -> exists m n, dsh M = [m; n] /\ nth c kl 0 = Nat.min m n /\ tiling (szr lr) rows m /\ tiling (szc lc) cols n /\
        factors m n (Nat.min m n) M (fst (fst (dsvd M))) (snd (fst (dsvd M))) (snd (dsvd M))).
      { intros c M rows cols k Hc Hp. pose proof Hp as (m & n & SM & TR & TC & _). exists m, n. split; [exact SM|]. split; [unfold kl; rewrite (msize_nth _ _ Hc), SM; cbn; apply Nat.min_comm|]. split; [exact TR|]. split; [exact TC|].
        assert (HT : thin M (dsvd M)) by (apply HO; exists k, rows, cols; split; [exact Hp|exact (CP _ _ Hc)]). unfold thin in HT. destruct (dsvd M) as ((bU, bD), bV). apply HT. exact SM. }
      assert (RI : forall k M rows cols i, pok k (M, rows, cols) -> In i (map fst rows) -> i < length lr /\ nth i qr e = fst k /\ qop G (fst k) (snd k) = b_rule T).
      { intros k M rows cols i (m & n & _ & _ & _ & KR & _) Hi. apply KR in Hi as (j & (v & Hv) & K1 & K2). destruct (@stored_pair G R T lr lc qr qc V HL HQ _ _ Hv) as (i' & j' & EQ & Hi' & Hj' & HR & _). injection EQ as <- <-. rewrite <- K1, <- K2. auto. }
      assert (CI : forall k M rows cols j, pok k (M, rows, cols) -> In j (map fst cols) -> j < length lc /\ nth j qc e = snd k /\ qop G (fst k) (snd k) = b_rule T).
      { intros k M rows cols j (m & n & _ & _ & _ & _ & KC & _) Hj. apply KC in Hj as (i & (v & Hv) & K1 & K2). destruct (@stored_pair G R T lr lc qr qc V HL HQ _ _ Hv) as (i' & j' & EQ & Hi' & Hj' & HR & _). injection EQ as <- <-. rewrite <- K1, <- K2. auto. }
      assert (NTHU : forall c F rows, nth_error (map fU ps) c = Some (F, rows) -> exists M cols, nth_error ps c = Some (M, rows, cols) /\ F = fst (fst (dsvd M))).
      { intros c F rows H. rewrite nth_error_map in H. destruct (nth_error ps c) as [((M, rows'), cols)|]; cbn in H; [|discriminate]. injection H as <- <-. eauto. }
      assert (NTHV : forall c F cols, nth_error (map fV ps) c = Some (F, cols) -> exists M rows, nth_error ps c = Some (M, rows, cols) /\ F = snd (dsvd M)).
      { intros c F cols H. rewrite nth_error_map in H. destruct (nth_error ps c) as [((M, rows'), cols')|]; cbn in H; [|discriminate]. injection H as <- <-. eauto. }
      destruct (@factor_ok G R lr kl qr kq (b_rule T) (map fU ps) U0 HU) as (U & EU & MU & VU & AU & BU).
      { intros c F rows H. destruct (NTHU _ _ _ H) as (M & cols & Hc & ->). destruct (PC _ _ _ _ Hc) as (k & Hk & Hp & Kq). destruct (FA _ _ _ _ _ Hc Hp) as (m & n & SM & Sk & TR & TC & (F1 & F2 & F3 & F4)).
        split; [rewrite LK; apply nth_error_Some; congruence|]. split; [exists m; rewrite Sk; split; [exact F1|exact TR]|]. intros i Hi. destruct (RI _ _ _ _ _ Hp Hi) as (I1 & I2 & I3). split; [exact I1|]. rewrite I2, Kq. exact I3. }
      destruct (@factor_ok G R lc kl qc (map (fun k => qinv G (snd k)) ks) e (map fV ps) W0 HW) as (W & EW & MW & VW & AW & BW).
      { intros c F cols H. destruct (NTHV _ _ _ H) as (M & rows & Hc & ->). destruct (PC _ _ _ _ Hc) as (k & Hk & Hp & Kq). destruct (FA _ _ _ _ _ Hc Hp) as (m & n & SM & Sk & TR & TC & (F1 & F2 & F3 & F4)).
        split; [rewrite LK; apply nth_error_Some; congruence|]. split; [exists n; rewrite Sk; split; [exact F3|exact TC]|]. intros j Hj. destruct (CI _ _ _ _ _ Hp Hj) as (I1 & I2 & I3). split; [exact I1|]. rewrite I2.
        replace (nth c (map (fun k => qinv G (snd k)) ks) e) with (qinv G (snd k)); [apply qop_inv_r|]. apply (map_nth_error (fun k => qinv G (snd k))) in Hk. apply nth_error_nth with (d := e) in Hk. symmetry. exact Hk. }
      destruct Hd as (Vd & Bd & Ld & Qd & Rd).
      destruct (@put_diag_ok kl (map fD ps) 0 d0 Vd Ld) as (d & Ed & Md & Vd' & Ad & _).
      { rewrite Qd. cbn. rewrite app_nil_r. intros q0 Hq. apply in_map_iff in Hq as (? & <- & _). reflexivity. } { exact Rd. }
      { intros c D H. cbn [Nat.add]. rewrite nth_error_map in H. destruct (nth_error ps c) as [((M, rows), cols)|] eqn:Hc; cbn in H; [|discriminate]. injection H as <-. destruct (PC _ _ _ _ Hc) as (k & Hk & Hp & Kq).
        destruct (FA _ _ _ _ _ Hc Hp) as (m & n & SM & Sk & TR & TC & (F1 & F2 & F3 & F4)). split; [rewrite LK; apply nth_error_Some; congruence|]. rewrite Sk. exact F2. }
      pose proof (legs_lens (proj1 V)) as NL. pose proof (qlegs_lens (proj1 V)) as NQ. rewrite <- NL, HL, HQ in NQ. cbn in NQ. injection NQ as NQ1 NQ2.
      assert (KI : forall k, In k ks -> In (fst k) qr /\ In (snd k) qc /\ qop G (fst k) (snd k) = b_rule T).
      { intros k Hk. apply In_nth_error in Hk as (c & Hk). assert (Lc : c < length ps) by (rewrite <- LP; apply nth_error_Some; congruence). destruct (nth_some ps Lc) as (((M, rows), cols) & Hc).
        destruct (PC _ _ _ _ Hc) as (k' & Hk' & Hp & _). rewrite Hk in Hk'. injection Hk' as <-. pose proof Hp as (m & n & _ & _ & _ & _ & _ & (i & j & Hi & Hj) & _).
        destruct (RI _ _ _ _ _ Hp Hi) as (I1 & I2 & I3). destruct (CI _ _ _ _ _ Hp Hj) as (J1 & J2 & _). split; [rewrite <- I2; apply nth_In; lia|]. split; [rewrite <- J2; apply nth_In; lia|exact I3]. }
      assert (INJ : forall (f : G * G -> G), (forall k k', In k ks -> In k' ks -> f k = f k' -> k = k') -> NoDup (map f ks)).
      { intros f Hf. clear -ND Hf. induction ND as [|k l Hk _ IH]; [constructor|]. cbn. constructor.
        - intros C. apply in_map_iff in C as (k' & E & Hk'). apply Hf in E; [subst; contradiction|right; exact Hk'|left; reflexivity].
        - apply IH. intros x y Hx Hy. apply Hf; right; assumption. }
      assert (NDS : NoDup (map snd ks)).
      { apply INJ. intros (k1, k2) (k1', k2') H1 H2 E. cbn in E. subst k2'. f_equal. apply (qop_cancel_r G k2). destruct (KI _ H1) as (_ & _ & E1), (KI _ H2) as (_ & _ & E2). cbn in *. congruence. }
      exists U, d, (inverse_cvals W), kl, kq. split.
      { unfold svd. rewrite EC. cbn [rbind]. rewrite ES. cbn [rbind]. rewrite (joint_ok ps 0 U0 d0 W0 EU EW Ed). reflexivity. }
      pose proof HU as (_ & _ & u1 & u2 & u3). pose proof HW as (_ & _ & w1 & w2 & w3).
      assert (ML : forall A B : t, same_meta A B -> legs B = legs A /\ qlegs B = qlegs A /\ b_rule B = b_rule A).
      { intros A B (m1 & m2 & m3 & m4 & m5). unfold legs, qlegs. rewrite m1, m3, m4, m5. auto. }
      assert (IW : forall b o, bentry (inverse_cvals W) b o = bentry W b o) by reflexivity.
      split; [|split; [|split; [|split]]].
      - destruct (ML _ _ MU) as (x1 & x2 & x3). destruct (ML _ _ Md) as (y1 & y2 & y3). destruct (ML _ _ MW) as (z1 & z2 & z3). constructor.
        + split; [exact VU|]. split; [exact Vd'|]. apply inverse_valid. exact VW.
        + rewrite x1, x2, x3. auto.
        + rewrite y1, y2, y3. split; [exact Ld|]. split; [rewrite Qd; unfold kq; rewrite map_map; reflexivity|exact Rd].
        + split; [unfold legs in *; cbn; rewrite z1; exact w1|]. split; [|cbn; rewrite z3, w3; apply inv_e].
          unfold qlegs in *. cbn [b_sbd b_cv inverse_cvals]. rewrite unpack_map, z2, w2. cbn [map]. rewrite map_map. unfold kq. replace (map (fun x : G * G => qinv G (qinv G (snd x))) ks) with (map snd ks) by (apply map_ext; intros k; symmetry; apply qinv_inv). reflexivity.
        + split; [rewrite LQ, LK; exact LP|]. unfold kq. apply NDS.
        + split; [rewrite LK, <- LP; split|].
          * rewrite <- NQ1, <- (map_length fst ks). apply NoDup_incl_length; [|intros x Hx; apply in_map_iff in Hx as (k & <- & Hk); apply KI; exact Hk].
            apply INJ. intros (k1, k2) (k1', k2') H1 H2 E. cbn in E. subst k1'. f_equal. apply (qop_cancel_l G k1). destruct (KI _ H1) as (_ & _ & E1), (KI _ H2) as (_ & _ & E2). cbn in *. congruence.
          * rewrite <- NQ2, <- (map_length snd ks). apply NoDup_incl_length; [|intros x Hx; apply in_map_iff in Hx as (k & <- & Hk); apply KI; exact Hk].
            exact NDS.
          * assert (KC' : forall c p, nth_error ps c = Some p -> exists k M rows cols, p = (M, rows, cols) /\ nth_error ks c = Some k /\ pok k (M, rows, cols)).
            { intros c ((M, rows), cols) Hc. destruct (PC _ _ _ _ Hc) as (k & Hk & Hp & _). exists k, M, rows, cols. auto. }
            assert (SAME : forall c c' k k', nth_error ks c = Some k -> nth_error ks c' = Some k' -> fst k = fst k' \/ snd k = snd k' -> c = c').
            { intros c c' (k1, k2) (k1', k2') H1 H2 HE. pose proof (KI _ (nth_error_In _ _ H1)) as (_ & _ & E1). pose proof (KI _ (nth_error_In _ _ H2)) as (_ & _ & E2). cbn in *.
              assert (EQ : (k1, k2) = (k1', k2')) by (destruct HE as [<-|<-]; f_equal; [apply (qop_cancel_l G k1)|apply (qop_cancel_r G k2)]; congruence).
              apply (proj1 (NoDup_nth_error ks) ND); [apply nth_error_Some; congruence|congruence]. }
            split; [apply (@tiles_total lr kl (map (fun p => snd (fst p)) ps))|apply (@tiles_total lc kl (map (fun p => snd p) ps))]; try (rewrite map_length; exact LK).
            -- intros c s Hs. rewrite nth_error_map in Hs. destruct (nth_error ps c) as [p|] eqn:Hc; [|discriminate]. cbn in Hs. injection Hs as <-. destruct (KC' c p Hc) as (k & M & rows & cols & -> & Hk & Hp). destruct (FA _ _ _ _ _ Hc Hp) as (m & n & SM & Sk & TR & TC & _).
               exists m. split; [exact TR|]. split; [lia|]. intros i Hi. apply (RI _ _ _ _ _ Hp Hi).
            -- intros c c' s s' i Hs Hs' Hi Hi'. rewrite nth_error_map in Hs, Hs'. destruct (nth_error ps c) as [p|] eqn:Hc; [|discriminate]. destruct (nth_error ps c') as [p'|] eqn:Hc'; [|discriminate]. cbn in Hs, Hs'. injection Hs as <-. injection Hs' as <-.
               destruct (KC' c p Hc) as (k & M & rows & cols & -> & Hk & Hp). destruct (KC' c' p' Hc') as (k' & M' & rows' & cols' & -> & Hk' & Hp'). destruct (RI _ _ _ _ _ Hp Hi) as (_ & J1 & _). destruct (RI _ _ _ _ _ Hp' Hi') as (_ & J2 & _). apply (SAME c c' k k'); auto. left. congruence.
            -- intros c s Hs. rewrite nth_error_map in Hs. destruct (nth_error ps c) as [p|] eqn:Hc; [|discriminate]. cbn in Hs. injection Hs as <-. destruct (KC' c p Hc) as (k & M & rows & cols & -> & Hk & Hp). destruct (FA _ _ _ _ _ Hc Hp) as (m & n & SM & Sk & TR & TC & _).
               exists n. split; [exact TC|]. split; [lia|]. intros i Hi. apply (CI _ _ _ _ _ Hp Hi).
            -- intros c c' s s' i Hs Hs' Hi Hi'. rewrite nth_error_map in Hs, Hs'. destruct (nth_error ps c) as [p|] eqn:Hc; [|discriminate]. destruct (nth_error ps c') as [p'|] eqn:Hc'; [|discriminate]. cbn in Hs, Hs'. injection Hs as <-. injection Hs' as <-.
               destruct (KC' c p Hc) as (k & M & rows & cols & -> & Hk & Hp). destruct (KC' c' p' Hc') as (k' & M' & rows' & cols' & -> & Hk' & Hp'). destruct (CI _ _ _ _ _ Hp Hi) as (_ & J1 & _). destruct (CI _ _ _ _ _ Hp' Hi') as (_ & J2 & _). apply (SAME c c' k k'); auto. right. congruence.
        + intros a b x y Ha Hb Hx Hy. rewrite LK.
          assert (TERM : forall c M rows cols k, nth_error ps c = Some (M, rows, cols) -> nth_error ks c = Some k -> pok k (M, rows, cols) -> In a (map fst rows) -> In b (map fst cols) ->
            (sum z < nth c kl 0, rmul (rmul (bentry U [a; c] [x; z]) (bentry d [c] [z])) (rconj (bentry (inverse_cvals W) [b; c] [y; z]))) = bentry T [a; b] [x; y]).
          { intros c M rows cols k Hc Hk Hp Hra Hcb. destruct (FA _ _ _ _ _ Hc Hp) as (m & n & SM & Sk & TR & TC & (F1 & F2 & F3 & F4)). pose proof Hp as (m' & n' & SM' & _ & _ & _ & _ & _ & VM). rewrite SM in SM'. injection SM' as <- <-.
            apply keys_slice in Hra as (o & s & Hra), Hcb as (o' & s' & Hcb). destruct (tiling_len _ _ _ TR Hra) as (E1 & B1). destruct (tiling_len _ _ _ TC Hcb) as (E2 & B2). unfold szr in E1. unfold szc in E2. subst s s'.
            rewrite <- (VM a o _ b o' _ x y Hra Hcb Hx Hy), F4 by lia. rewrite Sk. apply sumf_ext. intros z _.
            rewrite (AU c (fst (fst (dsvd M))) rows a o _ x z) with (2 := Hra) by (rewrite nth_error_map, Hc; reflexivity).
            rewrite IW, (AW c (snd (dsvd M)) cols b o' _ y z) with (2 := Hcb) by (rewrite nth_error_map, Hc; reflexivity).
            unfold bentry at 1. pose proof (Ad c (snd (fst (dsvd M)))) as HAd. cbn [Nat.add] in HAd. rewrite HAd by (rewrite nth_error_map, Hc; reflexivity). reflexivity. }
          assert (ZERO : forall c M rows cols, nth_error ps c = Some (M, rows, cols) -> ~ (In a (map fst rows) /\ In b (map fst cols)) ->
            (sum z < nth c kl 0, rmul (rmul (bentry U [a; c] [x; z]) (bentry d [c] [z])) (rconj (bentry (inverse_cvals W) [b; c] [y; z]))) = rz).
          { intros c M rows cols Hc HNo. apply sumf_zero. intros z _. destruct (in_dec Nat.eq_dec a (map fst rows)) as [H1|H1].
            - rewrite IW, (BW c (snd (dsvd M)) cols b [y; z]); [rewrite rconj_0; ring|rewrite nth_error_map, Hc; reflexivity|tauto].
            - rewrite (BU c (fst (fst (dsvd M))) rows a [x; z]); [ring|rewrite nth_error_map, Hc; reflexivity|exact H1]. }
          assert (CASES : (exists c0 M rows cols k, nth_error ps c0 = Some (M, rows, cols) /\ nth_error ks c0 = Some k /\ pok k (M, rows, cols) /\ In a (map fst rows) /\ In b (map fst cols)) \/
            (forall c M rows cols, nth_error ps c = Some (M, rows, cols) -> ~ (In a (map fst rows) /\ In b (map fst cols)))).
          { destruct (in_dec (fun k k' : G * G => match bool_dec (pkeqb G k k') true with left H => left (proj1 (proj1 (pkey_order G) k k') H) | right H => right (fun E => H (proj2 (proj1 (pkey_order G) k k') E)) end) (nth a qr e, nth b qc e) ks) as [Hk|Hk].
            - apply In_nth_error in Hk as (c0 & Hk). assert (L0 : c0 < length ps) by (rewrite <- LP; apply nth_error_Some; congruence). destruct (nth_some ps L0) as (((M, rows), cols) & Hc).
              destruct (PC _ _ _ _ Hc) as (k & Hk' & Hp & _). rewrite Hk in Hk'. injection Hk' as <-.
              destruct (in_dec Nat.eq_dec a (map fst rows)) as [H1|H1]; [destruct (in_dec Nat.eq_dec b (map fst cols)) as [H2|H2]|].
              + left. exists c0, M, rows, cols. eexists. eauto.
              + right. intros c M' rows' cols' Hc' (I1 & I2). destruct (PC _ _ _ _ Hc') as (k' & Hk' & Hp' & _). destruct (RI _ _ _ _ _ Hp' I1) as (_ & J1 & _). destruct (CI _ _ _ _ _ Hp' I2) as (_ & J2 & _).
                assert (k' = (nth a qr e, nth b qc e)) by (destruct k'; cbn in *; congruence). subst k'. assert (c = c0) by (eapply (proj1 (NoDup_nth_error ks) ND); [apply nth_error_Some; congruence|congruence]). subst c. rewrite Hc in Hc'. injection Hc' as <- <- <-. contradiction.
              + right. intros c M' rows' cols' Hc' (I1 & I2). destruct (PC _ _ _ _ Hc') as (k' & Hk' & Hp' & _). destruct (RI _ _ _ _ _ Hp' I1) as (_ & J1 & _). destruct (CI _ _ _ _ _ Hp' I2) as (_ & J2 & _).
                assert (k' = (nth a qr e, nth b qc e)) by (destruct k'; cbn in *; congruence). subst k'. assert (c = c0) by (eapply (proj1 (NoDup_nth_error ks) ND); [apply nth_error_Some; congruence|congruence]). subst c. rewrite Hc in Hc'. injection Hc' as <- <- <-. contradiction.
            - right. intros c M' rows' cols' Hc' (I1 & I2). destruct (PC _ _ _ _ Hc') as (k' & Hk' & Hp' & _). destruct (RI _ _ _ _ _ Hp' I1) as (_ & J1 & _). destruct (CI _ _ _ _ _ Hp' I2) as (_ & J2 & _).
              apply Hk. assert (k' = (nth a qr e, nth b qc e)) by (destruct k'; cbn in *; congruence). subst k'. eapply nth_error_In; eauto. }
          destruct CASES as [(c0 & M & rows & cols & k & Hc & Hk & Hp & H1 & H2)|HNo].
          * rewrite (@sum_support (length ps) _ [c0]).
            -- cbn [sumf fold_right]. rewrite (TERM _ _ _ _ _ Hc Hk Hp H1 H2). ring.
            -- constructor; [intros []|constructor].
            -- intros i [<-|[]]. apply nth_error_Some. congruence.
            -- intros c Lc Hne. destruct (nth_some ps Lc) as (((M', rows'), cols') & Hc'). eapply ZERO; [exact Hc'|]. intros (I1 & I2). apply Hne. left.
               destruct (PC _ _ _ _ Hc') as (k' & Hk' & Hp' & _). destruct (RI _ _ _ _ _ Hp' I1) as (_ & J1 & _). destruct (CI _ _ _ _ _ Hp' I2) as (_ & J2 & _). destruct (RI _ _ _ _ _ Hp H1) as (_ & J3 & _). destruct (CI _ _ _ _ _ Hp H2) as (_ & J4 & _).
               assert (k = k') by (destruct k, k'; cbn in *; congruence). subst k'. eapply (proj1 (NoDup_nth_error ks) ND); [apply nth_error_Some; congruence|congruence].
          * rewrite sumf_zero.
            -- unfold bentry. destruct (assoc leqb [a; b] (b_blocks T)) as [v|] eqn:EA; [|reflexivity]. exfalso. apply (assoc_In key_order_idx) in EA.
               assert (HI : In (nth a qr e, nth b qc e) ks) by (apply HS; exists v; exact EA). apply In_nth_error in HI as (c & Hk). assert (Lc : c < length ps) by (rewrite <- LP; apply nth_error_Some; congruence).
               destruct (nth_some ps Lc) as (((M', rows'), cols') & Hc'). destruct (PC _ _ _ _ Hc') as (k' & Hk' & Hp' & _). rewrite Hk in Hk'. injection Hk' as <-. apply (HNo _ _ _ _ Hc').
               destruct Hp' as (m & n & _ & _ & _ & KR & KC & _). split; [apply KR; exists b|apply KC; exists a]; (split; [exists v; exact EA|auto]).
            -- intros c Hc. apply in_seq in Hc. destruct (nth_some ps (proj2 Hc)) as (((M', rows'), cols') & Hc'). eapply ZERO; [exact Hc'|]. eapply HNo. exact Hc'.
      - intros c Hc. rewrite LK in Hc. destruct (nth_some ps Hc) as (((M, rows), cols) & Hc'). destruct (PC _ _ _ _ Hc') as (k & _ & Hp & _). destruct Hp as (m & n & _ & _ & _ & KR & _ & (i & j & Hi & _) & _). apply KR in Hi as (j' & (v & Hv) & _). eauto.
      - intros b v Hb. rewrite LK, <- LP. destruct (@stored_pair G R T lr lc qr qc V HL HQ _ _ Hb) as (i & j & -> & _). pose proof (HS i j (ex_intro _ v Hb)) as HI. destruct ks; [destruct HI|cbn; lia].
      - intros HI. assert (KEY : forall c c' k k', nth_error ks c = Some k -> nth_error ks c' = Some k' -> k = k' -> c = c') by (intros c c' k k' E1 E2 <-; eapply (proj1 (NoDup_nth_error ks) ND); [apply nth_error_Some; congruence|congruence]).
        split.
        + apply (@factor_iso lr kl (map fU ps) U); [|rewrite map_length; symmetry; exact LK|exact AU|exact BU|].
          * intros c F rows H. destruct (NTHU _ _ _ H) as (M & cols & Hc & ->). destruct (PC _ _ _ _ Hc) as (k & Hk & Hp & Kq). destruct (FA _ _ _ _ _ Hc Hp) as (m & n & SM & Sk & TR & TC & (F1 & F2 & F3 & F4)).
            exists m. rewrite Sk. split; [exact F1|]. split; [exact TR|]. split; [intros i Hi; apply (RI _ _ _ _ _ Hp Hi)|]. assert (HT : isometries M (dsvd M)) by (apply HI; exists k, rows, cols; split; [exact Hp|exact (CP _ _ Hc)]). unfold isometries in HT. destruct (dsvd M) as ((bU, bD), bV). apply HT. exact SM.
          * intros c F rows c' F' rows' i H H' I1 I2. destruct (NTHU _ _ _ H) as (M & cols & Hc & _). destruct (NTHU _ _ _ H') as (M' & cols' & Hc' & _). destruct (PC _ _ _ _ Hc) as (k & Hk & Hp & _). destruct (PC _ _ _ _ Hc') as (k' & Hk' & Hp' & _).
            destruct (RI _ _ _ _ _ Hp I1) as (_ & J1 & J2). destruct (RI _ _ _ _ _ Hp' I2) as (_ & J3 & J4). apply (KEY _ _ _ _ Hk Hk'). destruct k as (k1, k2), k' as (k1', k2'). cbn in *. assert (k1 = k1') as <- by congruence. f_equal. apply (qop_cancel_l G k1). congruence.
        + apply (@factor_iso lc kl (map fV ps) (inverse_cvals W)); [|rewrite map_length; symmetry; exact LK|exact AW|exact BW|].
          * intros c F cols H. destruct (NTHV _ _ _ H) as (M & rows & Hc & ->). destruct (PC _ _ _ _ Hc) as (k & Hk & Hp & Kq). destruct (FA _ _ _ _ _ Hc Hp) as (m & n & SM & Sk & TR & TC & (F1 & F2 & F3 & F4)).
            exists n. rewrite Sk. split; [exact F3|]. split; [exact TC|]. split; [intros i Hi; apply (CI _ _ _ _ _ Hp Hi)|]. assert (HT : isometries M (dsvd M)) by (apply HI; exists k, rows, cols; split; [exact Hp|exact (CP _ _ Hc)]). unfold isometries in HT. destruct (dsvd M) as ((bU, bD), bV). apply HT. exact SM.
          * intros c F cols c' F' cols' i H H' I1 I2. destruct (NTHV _ _ _ H) as (M & rows & Hc & _). destruct (NTHV _ _ _ H') as (M' & rows' & Hc' & _). destruct (PC _ _ _ _ Hc) as (k & Hk & Hp & _). destruct (PC _ _ _ _ Hc') as (k' & Hk' & Hp' & _).
            destruct (CI _ _ _ _ _ Hp I1) as (_ & J1 & J2). destruct (CI _ _ _ _ _ Hp' I2) as (_ & J3 & J4). apply (KEY _ _ _ _ Hk Hk'). destruct k as (k1, k2), k' as (k1', k2'). cbn in *. assert (k2 = k2') as <- by congruence. f_equal. apply (qop_cancel_r G k2). congruence.
      - intros c Hc. rewrite LK in Hc. destruct (nth_some ps Hc) as (((M, rows), cols) & Hc'). destruct (PC _ _ _ _ Hc') as (k & Hk & Hp & _). destruct (FA _ _ _ _ _ Hc' Hp) as (m & n & SM & Sk & TR & TC & (F1 & F2 & F3 & F4)).
        exists M. split; [exists k, rows, cols; split; [exact Hp|exact (CP _ _ Hc')]|]. pose proof (Ad c (snd (fst (dsvd M)))) as HAd. cbn [Nat.add] in HAd. rewrite HAd by (rewrite nth_error_map, Hc'; reflexivity). split; [reflexivity|]. rewrite F2, <- Sk. reflexivity.
    Qed.
  End T.
End Svd.

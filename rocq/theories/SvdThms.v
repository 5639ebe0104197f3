(** The block singular value decomposition of a matrix, in terms of blocks. *)
From Verif Require Import Base Quantity QuantityProofs FlatMap SpecFlatMap FlatMapProofs Ring Index SpecIndex Dense IndexProofs BTensor SpecBTensor LegsProofs
  BTensorProofs BTensorThms BTensorThms2 BTensorArith ArithProofs Tensordot SpecTensordot TensordotProofs TensordotThms SpecReshape View SpecView ViewProofs ViewThms
  Chain SpecChain Edges SpecEdges EdgesProofs EdgesBlock BSvd SvdPieces SvdProofs.
From Coq Require Import Permutation.
Set Implicit Arguments.

Section Svd.
  Variable G : abgroup.
  Variable R : ring.
  Add Ring Rring : (ring_th R).
  Notation t := (btensor G R).
  Notation entry := (list nat * dense R)%type.
  Notation "'e'" := (qe G).
  Notation stores := SpecReshape.stored.

  Definition pkeqb (a b : G * G) : bool := qeqb G (snd a) (snd b) && qeqb G (fst a) (fst b).
  Definition pklt (a b : G * G) : bool := qltb G (fst a) (fst b) || (qeqb G (fst a) (fst b) && qltb G (snd a) (snd b)).
  Lemma pkey_order : key_order pkeqb pklt.
  Proof.
    assert (TR : forall a b c : G, qltb G a b = true -> qltb G b c = true -> qltb G a c = true) by (intros; eapply qltb_trans; eauto).
    split; [|split; [|split]].
    - intros (a, b) (c, d). unfold pkeqb. cbn. rewrite andb_true_iff, !qeqb_spec. split; [intros [-> ->]; reflexivity|intros E; injection E; auto].
    - intros (a, b). unfold pklt. cbn. rewrite !qltb_irrefl, andb_false_r. reflexivity.
    - intros (a, a') (b, b') (c, c'). unfold pklt. cbn. rewrite !orb_true_iff, !andb_true_iff, !qeqb_spec. intros [H|[-> H]] [K|[-> K]]; eauto.
    - intros (a, a') (b, b'). unfold pklt. cbn. rewrite !orb_true_iff, !andb_true_iff, !qeqb_spec.
      destruct (qltb G a b) eqn:E1; [tauto|]. destruct (qltb G b a) eqn:E2; [tauto|]. assert (a = b) as <- by (destruct (qltb_total G a b) as [H|[H|H]]; congruence).
      destruct (qltb_total G a' b') as [H|[H|H]]; [left; tauto|right; left; congruence|right; right; tauto].
  Qed.

  Section T.
    Variable T : t.
    Variables (lr lc : list nat) (qr qc : list G).
    Hypothesis V : valid T.
    Hypothesis HL : legs T = [lr; lc].
    Hypothesis HQ : qlegs T = [qr; qc].

    Lemma T_rank : b_rank T = 2. Proof. rewrite <- (legs_length (proj1 V)), HL. reflexivity. Qed.
    Lemma T_sbd : b_sbd T = [length lr; length lc]. Proof. rewrite <- (legs_lens (proj1 V)), HL. reflexivity. Qed.
    Lemma T_qlen : length qr = length lr /\ length qc = length lc.
    Proof. pose proof (qlegs_lens (proj1 V)) as H. rewrite HQ, T_sbd in H. cbn in H. injection H as -> ->. auto. Qed.
    Lemma qtt_r b : qtt T 0 b = nth b qr e.
    Proof. unfold qtt. rewrite prange_unpack by (rewrite T_sbd; cbn; lia). fold (qlegs T). rewrite HQ. reflexivity. Qed.
    Lemma qtt_c b : qtt T 1 b = nth b qc e.
    Proof. unfold qtt. rewrite prange_unpack by (rewrite T_sbd; cbn; lia). fold (qlegs T). rewrite HQ. reflexivity. Qed.
    Definition szr i := nth i lr 0.
    Definition szc i := nth i lc 0.
    Definition pkey (x : entry) : G * G := (qtt T 0 (row_of x), qtt T 1 (col_of x)).

    Lemma stored_pair k v : In (k, v) (b_blocks T) -> exists i j, k = [i; j] /\ i < length lr /\ j < length lc /\ qop G (nth i qr e) (nth j qc e) = b_rule T /\ dsh v = [szr i; szc j].
    Proof.
      intros H. destruct (proj1 (proj2 V) k v H) as ((A1 & A2) & A3). rewrite T_sbd in A1. rewrite HQ in A2. rewrite HL in A3.
      destruct k as [|i [|j [|? ?]]]; try (cbn in A1; rewrite ?andb_false_r in A1; discriminate). cbn in A1. rewrite andb_true_r, andb_true_iff, !Nat.ltb_lt in A1.
      exists i, j. cbn in A2. rewrite qop_e_r in A2. cbn in A3. unfold szr, szc. tauto.
    Qed.
    Lemma block_entry_ok x : In x (b_blocks T) -> entry_ok szr szc x.
    Proof. destruct x as (k, v). intros H. destruct (stored_pair _ _ H) as (i & j & -> & _ & _ & _ & H5). split; [reflexivity|exact H5]. Qed.

    (** One piece: the rows and columns of the stored blocks with given quantities, and the matrix of their entries. *)
    Definition piece_ok (k : G * G) (p : dense R * list slice * list slice) : Prop :=
      let '(M, rows, cols) := p in
      exists m n, dsh M = [m; n] /\ tiling szr rows m /\ tiling szc cols n /\
        (forall i, In i (map fst rows) <-> exists j, stores T [i; j] /\ nth i qr e = fst k /\ nth j qc e = snd k) /\
        (forall j, In j (map fst cols) <-> exists i, stores T [i; j] /\ nth i qr e = fst k /\ nth j qc e = snd k) /\
        (exists i j, In i (map fst rows) /\ In j (map fst cols)) /\
        forall i o s j o' s' x y, In (i, (o, s)) rows -> In (j, (o', s')) cols -> x < s -> y < s' -> dv M [o + x; o' + y] = bentry T [i; j] [x; y].

    Lemma sorted_filter (f : entry -> bool) l : sorted lexb l -> sorted lexb (filter f l).
    Proof.
      induction 1 as [|x l HS IH HF]; [constructor|]. cbn. destruct (f x); [|exact IH]. constructor; [exact IH|].
      rewrite Forall_forall in *. intros y Hy. apply filter_In in Hy as (Hy & _). auto.
    Qed.
    Lemma piece_entry k e0 : In e0 (filter (fun x => pkeqb (pkey x) k) (b_blocks T)) <-> exists i j v, e0 = ([i; j], v) /\ In ([i; j], v) (b_blocks T) /\ nth i qr e = fst k /\ nth j qc e = snd k.
    Proof.
      rewrite filter_In, (proj1 pkey_order). split.
      - intros (H & HK). destruct e0 as (k0, v). destruct (stored_pair _ _ H) as (i & j & -> & _). exists i, j, v. split; [reflexivity|]. split; [exact H|].
        unfold pkey in HK. rewrite qtt_r, qtt_c in HK. subst k. auto.
      - intros (i & j & v & -> & H & K1 & K2). split; [exact H|]. unfold pkey. rewrite qtt_r, qtt_c. cbn. rewrite K1, K2. destruct k; reflexivity.
    Qed.
    Lemma compact_ok : exists ps ks, compact_dense T = Ok ps /\ NoDup ks /\ Forall2 piece_ok ks ps /\ forall i j, stores T [i; j] -> In (nth i qr e, nth j qc e) ks.
    Proof.
      destruct (@pieces_spec R (G * G) pkey pkeqb pklt pkey_order (b_blocks T)) as (ks & E & ND & HK).
      assert (HP : forall k, In k ks -> exists p, compact_dense_single (filter (fun x => pkeqb (pkey x) k) (b_blocks T)) = Ok p /\ piece_ok k p).
      { intros k Hk. apply HK in Hk as (x & Hx & Kx). set (p := filter (fun x => pkeqb (pkey x) k) (b_blocks T)).
        assert (Hxp : In x p) by (apply filter_In; split; [exact Hx|apply (proj1 pkey_order); exact Kx]).
        destruct (@compact_single_ok R szr szc p) as (M & rows & cols & m & n & EE & SM & TR & TC & KR & KC & VM).
        - intros C. rewrite C in Hxp. destruct Hxp.
        - apply Forall_forall. intros y Hy. apply block_entry_ok. apply filter_In in Hy. tauto.
        - apply sorted_filter, V.
        - exists (M, rows, cols). split; [exact EE|]. exists m, n. split; [exact SM|]. split; [exact TR|]. split; [exact TC|].
          assert (KR' : forall i, In i (map fst rows) <-> exists j, stores T [i; j] /\ nth i qr e = fst k /\ nth j qc e = snd k).
          { intros i. rewrite KR. split.
            - intros (y & Hy & Ey). apply piece_entry in Hy as (i' & j' & v & -> & H1 & H2 & H3). cbn in Ey. subst i'. exists j'. split; [exists v; exact H1|auto].
            - intros (j & (v & Hv) & H2 & H3). exists ([i; j], v). split; [apply piece_entry; exists i, j, v; auto|reflexivity]. }
          assert (KC' : forall j, In j (map fst cols) <-> exists i, stores T [i; j] /\ nth i qr e = fst k /\ nth j qc e = snd k).
          { intros j. rewrite KC. split.
            - intros (y & Hy & Ey). apply piece_entry in Hy as (i' & j' & v & -> & H1 & H2 & H3). cbn in Ey. subst j'. exists i'. split; [exists v; exact H1|auto].
            - intros (i & (v & Hv) & H2 & H3). exists ([i; j], v). split; [apply piece_entry; exists i, j, v; auto|reflexivity]. }
          split; [exact KR'|]. split; [exact KC'|]. split; [exists (row_of x), (col_of x); split; [apply KR|apply KC]; exists x; auto|].
          intros i o s j o' s' x0 y Hi Hj Hx0 Hy. rewrite (VM i o s j o' s' x0 y Hi Hj Hx0 Hy). unfold bentry.
          assert (HA : assoc leqb [i; j] p = assoc leqb [i; j] (b_blocks T)); [|rewrite HA; reflexivity].
          assert (Qi : nth i qr e = fst k) by (apply (in_map fst) in Hi; apply KR' in Hi as (? & ? & ? & ?); assumption).
          assert (Qj : nth j qc e = snd k) by (apply (in_map fst) in Hj; apply KC' in Hj as (? & ? & ? & ?); assumption).
          destruct (assoc leqb [i; j] (b_blocks T)) as [v|] eqn:EA.
          + apply (In_assoc key_order_idx); [apply sorted_filter, V|]. apply piece_entry. exists i, j, v. split; [reflexivity|]. split; [apply (assoc_In key_order_idx) in EA; exact EA|auto].
          + apply (assoc_None key_order_idx). intros (v & Hv). apply filter_In in Hv as (Hv & _). apply (assoc_None key_order_idx _ _) in EA. apply EA. exists v. exact Hv. }
      assert (HM : exists ps, rmapM (@compact_dense_single R) (map (fun k => filter (fun x => pkeqb (pkey x) k) (b_blocks T)) ks) = Ok ps /\ Forall2 piece_ok ks ps).
      { clear -HP. induction ks as [|k ks IH]; [exists []; split; [reflexivity|constructor]|]. destruct (HP k (or_introl eq_refl)) as (p & E1 & P1).
        destruct IH as (ps & E2 & P2); [intros k' Hk'; apply HP; right; exact Hk'|]. exists (p :: ps). cbn [map rmapM]. rewrite E1. cbn [rbind]. rewrite E2. cbn [rbind]. split; [reflexivity|]. constructor; auto. }
      destruct HM as (ps & E2 & P2). exists ps, ks. split.
      - unfold compact_dense. rewrite <- E2. f_equal. exact E.
      - split; [exact ND|]. split; [exact P2|]. intros i j (v & Hv). apply HK. exists ([i; j], v). split; [exact Hv|]. unfold pkey. rewrite qtt_r, qtt_c. reflexivity.
    Qed.
  End T.

  (** Assigning all blocks of one factor. *)
  Fixpoint put_factor (b : nat) (fs : list (dense R * list slice)) (S : t) : result t :=
    match fs with [] => Ok S | (F, rows) :: fs' => do S' <- put_rows F b rows S ; put_factor (Datatypes.S b) fs' S' end.
  Section F.
    Variables (l kl : list nat) (ql qk : list G) (r : G).
    Definition fmeta (S : t) : Prop := legs S = [l; kl] /\ qlegs S = [ql; qk] /\ b_rule S = r.
    Definition good_rows (b : nat) (F : dense R) (rows : list slice) : Prop :=
      b < length kl /\ (exists m, dsh F = [m; nth b kl 0] /\ tiling (fun i => nth i l 0) rows m) /\
      forall i, In i (map fst rows) -> i < length l /\ qop G (nth i ql e) (nth b qk e) = r.
    Lemma fmeta_same (S S' : t) : fmeta S -> same_meta S S' -> fmeta S'.
    Proof. intros (A & B & C) (S1 & S2 & S3 & S4 & S5). unfold fmeta, legs, qlegs in *. rewrite <- S1, <- S3, <- S4, <- S5. auto. Qed.
    Lemma good_allowed (S : t) b F rows i : valid S -> fmeta S -> good_rows b F rows -> In i (map fst rows) -> allowed S [i; b].
    Proof.
      intros V (A & B & C) (Hb & _ & H) Hi. destruct (H i Hi) as (H1 & H2). unfold allowed. rewrite <- (legs_lens (proj1 V)), A, B, C. cbn.
      rewrite qop_e_r. split; [|exact H2]. rewrite !andb_true_iff, !Nat.ltb_lt. auto.
    Qed.
    Lemma put_rows_ok b F rows : forall l0 (S : t), valid S -> fmeta S -> good_rows b F rows -> (forall x, In x l0 -> In x rows) -> NoDup (map fst l0) ->
      exists S', put_rows F b l0 S = Ok S' /\ same_meta S S' /\ valid S' /\
        (forall i o s, In (i, (o, s)) l0 -> assoc leqb [i; b] (b_blocks S') = Some (d_slice [o; 0] [s; nth 1 (dsh F) 0] F)) /\
        (forall k, (forall i, In i (map fst l0) -> k <> [i; b]) -> assoc leqb k (b_blocks S') = assoc leqb k (b_blocks S)).
    Proof.
      induction l0 as [|(i, (o, s)) l0 IH]; intros S V M HG HI HN.
      - exists S. split; [reflexivity|]. split; [repeat split|]. split; [exact V|]. split; [intros ? ? ? []|reflexivity].
      - inversion HN as [|? ? N1 N2]; subst. pose proof HG as (Hb & (m & SF & TF) & HA). pose proof (HI _ (or_introl eq_refl)) as Hi.
        destruct (tiling_len _ _ _ TF Hi) as (-> & Lo). pose proof (@good_allowed S b F rows i V M HG (in_map fst _ _ Hi)) as AL.
        destruct (@block_assign_spec G R S [i; b] (d_slice [o; 0] [nth i l 0; nth 1 (dsh F) 0] F) V AL) as (S1 & E1 & M1 & V1 & A1).
        { rewrite (proj1 M), SF. reflexivity. }
        destruct (IH S1 V1 (fmeta_same M M1) HG) as (S2 & E2 & M2 & V2 & A2 & B2); [intros x Hx; apply HI; right; exact Hx|exact N2|].
        exists S2. split; [unfold put_rows in *; cbn [rfold]; cbn [fst snd] in *; rewrite E1; cbn [rbind]; exact E2|].
        split. { destruct M1 as (a1 & a2 & a3 & a4 & a5), M2 as (b1 & b2 & b3 & b4 & b5). repeat split; congruence. }
        split; [exact V2|]. split.
        + intros i' o' s' [EQ|Hi']; [|apply A2; exact Hi']. injection EQ as <- <- <-. rewrite B2, A1, leqb_refl; [reflexivity|].
          intros i'' Hi'' C. injection C as <-. contradiction.
        + intros k Hk. rewrite B2, A1 by (intros i' Hi'; apply Hk; right; exact Hi').
          destruct (leqb [i; b] k) eqn:EK; [|reflexivity]. apply leqb_eq in EK. exfalso. apply (Hk i); [left; reflexivity|congruence].
    Qed.
    Lemma put_factor_ok fs : forall b (S : t), valid S -> fmeta S -> (forall c F rows, nth_error fs c = Some (F, rows) -> good_rows (b + c) F rows) ->
      exists S', put_factor b fs S = Ok S' /\ same_meta S S' /\ valid S' /\
        (forall c F rows i o s, nth_error fs c = Some (F, rows) -> In (i, (o, s)) rows -> assoc leqb [i; b + c] (b_blocks S') = Some (d_slice [o; 0] [s; nth 1 (dsh F) 0] F)) /\
        (forall k, (forall c F rows i, nth_error fs c = Some (F, rows) -> In i (map fst rows) -> k <> [i; b + c]) -> assoc leqb k (b_blocks S') = assoc leqb k (b_blocks S)).
    Proof.
      induction fs as [|(F, rows) fs IH]; intros b S V M HG.
      - exists S. split; [reflexivity|]. split; [repeat split|]. split; [exact V|]. split; [intros [|c]; discriminate|reflexivity].
      - pose proof (HG 0 F rows eq_refl) as G0. rewrite Nat.add_0_r in G0. pose proof G0 as (Hb & (m & SF & TF) & HA).
        destruct (@put_rows_ok b F rows rows S V M G0) as (S1 & E1 & M1 & V1 & A1 & B1); [auto|exact (proj1 TF)|].
        destruct (IH (Datatypes.S b) S1 V1 (fmeta_same M M1)) as (S2 & E2 & M2 & V2 & A2 & B2).
        { intros c F' rows' Hc. replace (Datatypes.S b + c) with (b + Datatypes.S c) by lia. apply HG. exact Hc. }
        exists S2. split; [cbn [put_factor]; rewrite E1; cbn [rbind]; exact E2|].
        split. { destruct M1 as (a1 & a2 & a3 & a4 & a5), M2 as (b1 & b2 & b3 & b4 & b5). repeat split; congruence. }
        split; [exact V2|]. split.
        + intros [|c] F' rows' i o s Hc Hi.
          * injection Hc as <- <-. rewrite Nat.add_0_r. rewrite B2; [apply A1; exact Hi|]. intros c F' rows' i' _ _ C. injection C as _ C. lia.
          * replace (b + Datatypes.S c) with (Datatypes.S b + c) by lia. eapply A2; eauto.
        + intros k Hk. rewrite B2, B1; [reflexivity| |].
          * intros i Hi C. apply (Hk 0 F rows i eq_refl Hi). rewrite Nat.add_0_r. exact C.
          * intros c F' rows' i Hc Hi C. apply (Hk (Datatypes.S c) F' rows' i Hc Hi). rewrite C. do 2 f_equal. lia.
    Qed.
    (** The entries of the factor. *)
    Lemma factor_ok fs (S : t) : shape_is S [l; kl] [ql; qk] r -> (forall c F rows, nth_error fs c = Some (F, rows) -> good_rows c F rows) ->
      exists S', put_factor 0 fs S = Ok S' /\ same_meta S S' /\ valid S' /\
        (forall c F rows i o s x y, nth_error fs c = Some (F, rows) -> In (i, (o, s)) rows -> bentry S' [i; c] [x; y] = dv F [o + x; y]) /\
        (forall c F rows i o, nth_error fs c = Some (F, rows) -> ~ In i (map fst rows) -> bentry S' [i; c] o = rz).
    Proof.
      intros (V & B0 & L & Q & RU) HG. destruct (@put_factor_ok fs 0 S V (Logic.conj L (Logic.conj Q RU)) HG) as (S' & E & M & V' & A & B).
      exists S'. split; [exact E|]. split; [exact M|]. split; [exact V'|]. split.
      - intros c F rows i o s x y Hc Hi. unfold bentry. pose proof (A c F rows i o s Hc Hi) as HA. cbn [Nat.add] in HA. rewrite HA. reflexivity.
      - intros c F rows i o Hc Hi. unfold bentry. rewrite B, B0; [reflexivity|]. intros c' F' rows' i' Hc' Hi' C. cbn in C. injection C as <- <-. rewrite Hc in Hc'. injection Hc' as <- <-. contradiction.
    Qed.
  End F.
End Svd.

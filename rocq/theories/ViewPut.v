(** Theorems about assignment through views and about squeeze. *)
From Verif Require Import Base Quantity QuantityProofs FlatMap SpecFlatMap FlatMapProofs FlatMapThms Ring Index SpecIndex IndexProofs
  Dense BTensor SpecBTensor LegsProofs BTensorProofs BTensorThms BTensorArith ArithProofs Tensordot Reshape SpecReshape ReshapeProofs ReshapeThms
  View SpecView ViewProofs ViewThms.
Set Implicit Arguments.

Lemma hits_place L p bp op b o : resolves L p bp op -> in_range (lens L) b = true -> in_range (pick 0 L b) o = true ->
  t_hits p (place L b o) = t_hits bp b && t_hits op o /\ keep p (place L b o) = place (keep p L) (keep p b) (keep p o).
Proof.
  unfold lens. revert p bp op b o; induction L as [|l L IH]; intros [|[a|] p] [|[b'|] bp] [|[o'|] op] [|x b] [|y o] HR H1 H2;
    cbn in HR; try tauto; try discriminate; auto.
  - destruct HR as [HL HR]. cbn [map] in H1. apply in_range_cons in H1 as [H1 H1']. cbn [pick] in H2. apply in_range_cons in H2 as [H2 H2'].
    destruct (IH _ _ _ _ _ HR H1' H2') as [I1 I2]. cbn [place t_hits keep]. rewrite I1, I2. split; auto.
    assert (E : (sum_list (firstn x l) + y =? a) = (x =? b') && (y =? o')).
    { assert (Hl : located l (sum_list (firstn x l) + y) x y) by (repeat split; auto).
      destruct (Nat.eqb_spec (sum_list (firstn x l) + y) a) as [E|E].
      - rewrite E in Hl. apply find_section_unique in Hl. apply find_section_unique in HL. rewrite HL in Hl. injection Hl as -> ->.
        rewrite !Nat.eqb_refl. reflexivity.
      - destruct (Nat.eqb_spec x b') as [->|]; auto. destruct (Nat.eqb_spec y o') as [->|]; auto. destruct HL as (_ & _ & HL). congruence. }
    rewrite E. destruct (x =? b'), (y =? o'), (t_hits bp b), (t_hits op o); reflexivity.
  - cbn [map] in H1. apply in_range_cons in H1 as [H1 H1']. cbn [pick] in H2. apply in_range_cons in H2 as [H2 H2'].
    destruct (IH _ _ _ _ _ HR H1' H2') as [I1 I2]. cbn [place t_hits keep]. rewrite I1, I2. auto.
Qed.

Lemma last_cons_none A (x y : A) l d : last (x :: y :: l) d = last (y :: l) d.
Proof. reflexivity. Qed.
Lemma keep_last_none A (L : list A) p : length p = length L -> p <> [] -> last p None = None -> keep p L <> [].
Proof.
  revert L; induction p as [|x p IH]; intros [|l L] HL Hp Hl; try discriminate; [congruence|].
  destruct x as [a|]; [|discriminate]. cbn [keep]. destruct p as [|y p]; [discriminate|]. apply IH; auto. discriminate.
Qed.
Lemma output_index_ok L p bp op k : resolves L p bp op -> last p None = None -> length k = length (keep p L) ->
  output_index bp k = Ok (fill bp k).
Proof.
  revert p bp op k; induction L as [|l L IH]; intros [|[a|] p] [|[b|] bp] [|[o|] op] k HR HL Hk; cbn in HR; try tauto; auto.
  - destruct HR as [_ HR]. destruct p as [|y p]; [discriminate|]. rewrite last_cons_none in HL.
    assert (HN : keep (y :: p) L <> []).
    { apply keep_last_none; auto; [|discriminate]. apply (resolves_length _ _ _ _ HR). }
    change (keep (Some a :: y :: p) (l :: L)) with (keep (y :: p) L) in Hk.
    cbn [output_index fill]. destruct k as [|x k]; [destruct (keep (y :: p) L); [congruence|discriminate]|].
    rewrite (IH _ _ _ (x :: k) HR HL Hk). reflexivity.
  - assert (HL' : last p None = None) by (destruct p; auto).
    change (keep (None :: p) (l :: L)) with (l :: keep p L) in Hk. destruct k as [|x k]; [discriminate|].
    cbn [output_index fill]. rewrite (IH _ _ _ k HR HL') by auto. reflexivity.
Qed.
Lemma output_index_ub L p bp op k : resolves L p bp op -> last p None <> None -> length k = length (keep p L) ->
  output_index bp k = UB.
Proof.
  revert p bp op k; induction L as [|l L IH]; intros [|[a|] p] [|[b|] bp] [|[o|] op] k HR HL Hk; cbn in HR; try tauto.
  - destruct HR as [_ HR]. change (keep (Some a :: p) (l :: L)) with (keep p L) in Hk. cbn [output_index]. destruct k as [|x k]; auto.
    destruct p as [|y p]; [destruct L; discriminate|]. rewrite last_cons_none in HL. rewrite (IH _ _ _ (x :: k) HR HL Hk). reflexivity.
  - change (keep (None :: p) (l :: L)) with (l :: keep p L) in Hk. destruct k as [|x k]; [discriminate|].
    destruct p as [|y p]; [exfalso; apply HL; reflexivity|]. rewrite last_cons_none in HL. cbn [output_index].
    rewrite (IH _ _ _ k HR HL) by auto. reflexivity.
Qed.

Section P.
  Context {G : abgroup} {R : ring}.
  Implicit Types T V : btensor G R.
  Notation entry := (list nat * dense R)%type.
  Notation KO := key_order_idx.

  Definition put_d (op : pattern) (src t : dense R) : dense R :=
    mkD (dsh t) (fun i => if t_hits op i then dv src (t_rest op i) else dv t i).
  Definition dflt_zeros T (b : list nat) (o : option (dense R)) : dense R :=
    match o with Some t => t | None => d_zeros (pick 0 (legs T) b) end.

  Lemma put_fold T p bp op : meta_ok T -> resolves (legs T) p bp op -> last p None = None -> forall v l,
    sorted lexb v -> sorted lexb l ->
    (forall k t, In (k, t) v -> in_range (keep p (b_sbd T)) k = true /\ dsh t = pick 0 (keep p (legs T)) k) ->
    (forall b t, assoc leqb b l = Some t -> dsh t = pick 0 (legs T) b) ->
    exists l', rfold (fun T '(k, blk) =>
      do out_ind <- output_index bp k ;
      do l <- (if fm_contains lexb (b_blocks T) out_ind then Ok (b_blocks T)
               else do sz <- block_sizes T out_ind ; Ok (fst (fst (fm_insert leqb lexb (b_blocks T) (out_ind, d_zeros sz))))) ;
      do t <- fm_at lexb l out_ind ;
      do t' <- t_index_put (zel op) blk t ;
      Ok (with_blocks T (fm_subscript_assign lexb (@undefined_tensor R) l out_ind t'))) v (with_blocks T l) = Ok (with_blocks T l') /\
      sorted lexb l' /\
      forall b, assoc leqb b l' =
        match (if t_hits bp b then assoc leqb (keep p b) v else None) with
        | Some blk => Some (put_d op blk (dflt_zeros T b (assoc leqb b l)))
        | None => assoc leqb b l
        end.
  Proof.
    intros HM HR HL. pose proof (legs_lens HM) as NL. pose proof (resolves_length _ _ _ _ HR) as (L1 & L2 & L3).
    assert (K1 : keep p (b_sbd T) = lens (keep p (legs T))) by (rewrite <- NL; unfold lens; apply keep_map).
    induction v as [|[k blk] v IH]; intros l HSv HSl Hv Hl.
    { exists l. split; [reflexivity|]. split; auto. intros b. cbn [assoc]. destruct (t_hits bp b); auto. }
    destruct (Hv k blk (or_introl eq_refl)) as [Hk Hsh]. apply sorted_cons in HSv as [HSv1 HSv2].
    assert (Lk : length k = length (keep p (legs T))) by (rewrite (in_range_length _ _ Hk), K1; apply map_length).
    assert (Hf : in_range (b_sbd T) (fill bp k) = true).
    { rewrite <- NL, (fill_range _ _ _ _ _ HR) by auto. rewrite <- K1. auto. }
    assert (KF : keep p (fill bp k) = k).
    { rewrite <- (proj1 (resolves_keep _ _ _ _ _ HR)). apply keep_fill. rewrite Lk, (proj1 (resolves_keep _ _ _ _ _ HR)). apply keep_length. auto. }
    set (t := dflt_zeros T (fill bp k) (assoc leqb (fill bp k) l)).
    assert (Hst : exists l1, (if fm_contains lexb l (fill bp k) then Ok l
        else do sz <- block_sizes (with_blocks T l) (fill bp k) ; Ok (fst (fst (fm_insert leqb lexb l (fill bp k, d_zeros sz))))) = Ok l1 /\
        sorted lexb l1 /\ assoc leqb (fill bp k) l1 = Some t /\ forall b, leqb (fill bp k) b = false -> assoc leqb b l1 = assoc leqb b l).
    { rewrite (fm_contains_spec KO) by auto. unfold t. destruct (assoc leqb (fill bp k) l) as [t0|] eqn:E.
      - exists l. repeat split; auto.
      - rewrite block_sizes_spec by auto. cbn [rbind].
        destruct (fm_insert_spec KO (fill bp k) (@d_zeros R (pick 0 (legs (with_blocks T l)) (fill bp k))) HSl) as (l' & i & b & E1 & E2 & E3 & E4).
        rewrite E1. cbn [fst]. rewrite E in E3. subst b. exists l'. split; auto. split; auto. split.
        + rewrite E4, leqb_refl. reflexivity.
        + intros b Hb. rewrite E4, Hb. reflexivity. }
    destruct Hst as (l1 & S1 & S2 & S3 & S4).
    assert (Ht : dsh t = pick 0 (legs T) (fill bp k)).
    { unfold t. destruct (assoc leqb (fill bp k) l) as [t0|] eqn:E; [apply Hl; auto|reflexivity]. }
    assert (Hput : t_index_put (zel op) blk t = Ok (put_d op blk t)).
    { unfold t_index_put. rewrite Ht at 1. rewrite (t_positions_ok _ _ _ _ _ HR Lk). cbn [rbind].
      replace (leqb (dsh blk) (t_rest op (dsh t))) with true; [reflexivity|]. symmetry. apply leqb_eq.
      rewrite t_rest_keep, Ht, Hsh, (proj2 (resolves_keep _ _ _ _ _ HR)), <- (proj1 (resolves_keep _ _ _ _ (pick 0 _ _) HR)).
      rewrite keep_pick; [|auto|rewrite (proj1 (resolves_keep _ _ _ _ _ HR)); auto].
      rewrite (proj1 (resolves_keep _ _ _ _ _ HR)). reflexivity. }
    cbn [rfold]. rewrite (output_index_ok _ _ _ _ _ HR HL Lk). cbn [rbind with_blocks b_blocks].
    change (b_blocks (with_blocks T l)) with l. rewrite S1. cbn [rbind]. rewrite (fm_at_spec KO) by auto. rewrite S3. cbn [rbind]. rewrite Hput. cbn [rbind].
    set (l2 := fm_subscript_assign lexb (undefined_tensor R) l1 (fill bp k) (put_d op blk t)).
    destruct (fm_subscript_assign_spec KO (undefined_tensor R) (fill bp k) (put_d op blk t) S2) as [A1 A2]. fold l2 in A1, A2.
    assert (HA : forall b, assoc leqb b l2 = if leqb (fill bp k) b then Some (put_d op blk t) else assoc leqb b l).
    { intros b. rewrite A2. destruct (leqb (fill bp k) b) eqn:E; auto. }
    change (with_blocks (with_blocks T l) l2) with (with_blocks T l2).
    destruct (IH l2 HSv2 A1) as (l' & R1 & R2 & R3).
    - intros k' t' Hi. apply Hv. right; auto.
    - intros b t' E. rewrite HA in E. destruct (leqb (fill bp k) b) eqn:E2; [|apply Hl; auto]. injection E as <-. apply leqb_eq in E2. subst b. exact Ht.
    - exists l'. split; auto. split; auto. intros b. rewrite R3, HA. cbn [assoc fst snd]. destruct (t_hits bp b) eqn:Hh.
      + apply t_hits_fill in Hh as [Hh1 Hh2]. rewrite (proj1 (resolves_keep _ _ _ _ b HR)) in Hh2.
        destruct (leqb k (keep p b)) eqn:Ek.
        * apply leqb_eq in Ek. rewrite <- Ek in *. rewrite <- Hh2 in *. rewrite leqb_refl.
          replace (assoc leqb k v) with (@None (dense R)); [unfold t; rewrite <- Hh2; reflexivity|]. symmetry.
          destruct (assoc leqb k v) as [t'|] eqn:E; auto. exfalso. apply (assoc_In KO) in E. apply HSv1 in E. cbn [fst] in E. rewrite (kirr KO) in E. discriminate.
        * replace (leqb (fill bp k) b) with false; [reflexivity|]. symmetry. apply leqb_neq. intros <-. rewrite KF, leqb_refl in Ek. discriminate.
      + replace (leqb (fill bp k) b) with false; [reflexivity|]. symmetry. apply leqb_neq. intros <-. rewrite t_hits_of_fill in Hh. discriminate.
  Qed.

  Lemma view_meta_same T V p : valid V -> meta_ok T -> pat_ok (legs T) p -> view_meta p T V -> same_meta (view_shape T p) V.
  Proof.
    intros HV HM HP (V1 & V2 & V3 & V4). pose proof HV as [MV _]. pose proof MV as (W1 & W2 & W3). pose proof HM as (M1 & _).
    pose proof (legs_length HM) as LL. pose proof (legs_lens HM) as NL.
    destruct (V4 _ _ (pat_ok_resolves _ _ HP)) as [V5 _]. repeat split; cbn [view_shape b_rule b_rank b_sbd b_ss b_cv].
    - unfold view_rule. rewrite <- V5, <- qop_assoc, qop_inv_r, qop_e_r. reflexivity.
    - rewrite V3. apply keep_length. congruence.
    - rewrite <- (legs_lens MV), V1, <- NL. unfold lens. apply keep_map.
    - rewrite <- V1. apply concat_unpack. auto.
    - rewrite <- V2. apply concat_unpack. auto.
  Qed.

  Lemma index_put_spec T V p : valid T -> valid V -> pat_ok (legs T) p -> (forall n, In n (b_sbd T) -> 0 < n) ->
    view_meta p T V -> last p None = None ->
    exists T', basic_index_put_ T (zpat p) V = Ok T' /\ valid T' /\ same_meta T T' /\
      (forall bp op, resolves (legs T) p bp op -> written bp op T V T') /\
      forall D DV, dense_form T D -> dense_form V DV ->
        (forall bp op k o, resolves (legs T) p bp op -> in_range (b_sbd V) k = true -> in_range (pick 0 (legs V) k) o = true ->
          ~ stored V k -> bentry T (fill bp k) (fill op o) = rz) ->
        dense_form T' (d_assign p D DV).
  Proof.
    intros HT HV HP Hpos VM HL. pose proof HT as [HM [HB HS]]. pose proof HV as [MV [HBV HSV]].
    pose proof (view_meta_same HV HM HP VM) as SM. pose proof SM as (S1 & S2 & S3 & S4 & S5).
    pose proof (pat_ok_resolves _ _ HP) as HR. set (bp := bpat (legs T) p) in *. set (op := opat (legs T) p) in *.
    pose proof (legs_lens HM) as NL. pose proof (resolves_length _ _ _ _ HR) as (L1 & L2 & L3).
    destruct VM as (V1 & V2 & V3 & V4). destruct (V4 bp op HR) as [_ V5].
    cbn [view_shape b_sbd] in S3.
    assert (K1 : keep p (b_sbd T) = lens (keep p (legs T))) by (rewrite <- NL; unfold lens; apply keep_map).
    destruct (@put_fold T p bp op HM HR HL (b_blocks V) (b_blocks T) HSV HS) as (l' & E & HSl & HA).
    { intros k t Hi. destruct (HBV _ _ Hi) as [[A1 _] A2]. rewrite S3, <- V1. auto. }
    { intros b t Hb. apply (valid_assoc _ HT Hb). }
    set (T' := with_blocks T l'). assert (HT' : valid T').
    { split; [exact HM|]. split; [|exact HSl]. intros b t Hi. apply (In_assoc KO) in Hi; [|exact HSl]. change (b_blocks T') with l' in Hi. rewrite HA in Hi.
      change (allowed T b /\ dsh t = pick 0 (legs T) b).
      assert (Hold : forall t, assoc leqb b (b_blocks T) = Some t -> allowed T b /\ dsh t = pick 0 (legs T) b) by (intros t' Ht'; apply (valid_assoc _ HT Ht')).
      destruct (t_hits bp b) eqn:Hh; [|auto]. destruct (assoc leqb (keep p b) (b_blocks V)) as [blk|] eqn:Ek; [|auto].
      injection Hi as <-. apply t_hits_fill in Hh as [_ Hh]. rewrite (proj1 (resolves_keep _ _ _ _ b HR)) in Hh.
      apply (assoc_In KO) in Ek. destruct (HBV _ _ Ek) as [A1 _]. pose proof A1 as [A1r _]. apply V5 in A1; auto. rewrite <- Hh in A1.
      split; auto. cbn [put_d dsh]. destruct (assoc leqb b (b_blocks T)) as [t0|] eqn:Eb; [|reflexivity]. apply (Hold _ eq_refl). }
    assert (HW : written bp op T V T').
    { assert (KF : forall k, in_range (b_sbd V) k = true -> length k = length (keep p (legs T)) /\ keep p (fill bp k) = k).
      { intros k Hk. rewrite <- S3 in Hk. assert (Lk : length k = length (keep p (legs T))) by (rewrite (in_range_length _ _ Hk), K1; apply map_length).
        split; auto. rewrite <- (proj1 (resolves_keep _ _ _ _ _ HR)). apply keep_fill. rewrite Lk, (proj1 (resolves_keep _ _ _ _ _ HR)). apply keep_length. auto. }
      assert (KO' : forall k o, in_range (b_sbd V) k = true -> in_range (pick 0 (legs V) k) o = true -> t_rest op (fill op o) = o).
      { intros k o Hk Ho. destruct (KF k Hk) as [Lk _]. rewrite t_rest_keep. apply keep_fill.
        rewrite (in_range_length _ _ Ho), V1, pick_length by auto. rewrite (proj2 (resolves_keep _ _ _ _ _ HR)). apply keep_length. auto. }
      unfold written, bentry. change (b_blocks T') with l'. split; [|split].
      - intros k o Hk Ho [t Hi]. rewrite HA, t_hits_of_fill, (proj2 (KF k Hk)). apply (In_assoc KO) in Hi; auto. rewrite Hi.
        cbn [put_d dv]. rewrite t_hits_of_fill, (KO' k o Hk Ho). reflexivity.
      - intros k o Hk Ho Hn. rewrite HA, t_hits_of_fill, (proj2 (KF k Hk)).
        destruct (assoc leqb k (b_blocks V)) as [t|] eqn:Ek; auto. exfalso. apply Hn. exists t. apply (assoc_In KO); auto.
      - intros b o Hb Ho Hn. rewrite HA. destruct (t_hits bp b) eqn:Hh; auto. destruct (assoc leqb (keep p b) (b_blocks V)) as [blk|]; auto.
        apply t_hits_fill in Hh as [_ Hh]. cbn [put_d dv]. destruct (t_hits op o) eqn:Ho'.
        + apply t_hits_fill in Ho' as [_ Ho']. exfalso. apply (Hn _ _ Hh Ho').
        + destruct (assoc leqb b (b_blocks T)); reflexivity. }
    exists T'. split.
    { unfold basic_index_put_. rewrite shape_from_ok by auto. cbn [rbind]. rewrite (proj2 (add_check_spec _ _)) by auto. cbn [rbind].
      unfold impl_basic_index_put_. rewrite to_block_basis_spec by auto. fold bp op.
      replace T with (with_blocks T (b_blocks T)) at 1 by (destruct T; reflexivity). exact E. }
    split; auto. split; [repeat split|]. split.
    - intros bp' op' HR'. destruct (resolves_unique _ _ _ _ HR') as [-> ->]. exact HW.
    - intros D DV [D1 D2] [E1 E2] HZ. split; [exact D1|]. intros b o Hb Ho. cbn [d_assign dv]. change (legs T') with (legs T) in *. change (b_sbd T') with (b_sbd T) in Hb.
      pose proof Hb as Hb'. rewrite <- NL in Hb'. destruct (hits_place _ _ _ _ _ _ HR Hb' Ho) as [P1 P2].
      destruct (in_range_len_pick _ _ _ Hb' Ho) as [Lb Lo].
      rewrite on_slice_hits by (rewrite place_length by auto; congruence). rewrite P1, P2.
      destruct HW as (W1 & W2 & W3). destruct (t_hits bp b && t_hits op o) eqn:Hh.
      + apply andb_true_iff in Hh as [Hh1 Hh2]. apply t_hits_fill in Hh1 as [_ Hh1]. apply t_hits_fill in Hh2 as [_ Hh2].
        rewrite (proj1 (resolves_keep _ _ _ _ b HR)) in Hh1. rewrite (proj2 (resolves_keep _ _ _ _ o HR)) in Hh2.
        assert (Lk : length (keep p b) = length (keep p (legs T))) by (apply keep_length; auto).
        assert (Lk' : length (keep p o) = length (keep p (legs T))) by (apply keep_length; auto).
        assert (R1 : in_range (b_sbd V) (keep p b) = true).
        { rewrite <- S3, K1, <- (fill_range _ _ _ _ _ HR) by auto. rewrite <- Hh1. auto. }
        assert (R2 : in_range (pick 0 (legs V) (keep p b)) (keep p o) = true).
        { rewrite V1, <- (fill_range_off _ _ _ _ _ _ HR) by auto. rewrite <- Hh1, <- Hh2. auto. }
        rewrite <- V1. rewrite E2 by auto. rewrite Hh1, Hh2 at 2.
        destruct (assoc leqb (keep p b) (b_blocks V)) as [t|] eqn:Ek.
        * rewrite W1; auto. exists t. apply (assoc_In KO); auto.
        * assert (Hn : ~ stored V (keep p b)). { intros [t Hi]. apply (In_assoc KO) in Hi; auto. congruence. }
          rewrite W2 by auto. rewrite (HZ bp op _ _ HR) by auto. unfold bentry. rewrite Ek. reflexivity.
      + rewrite D2 by auto. symmetry. apply W3; auto. intros k o' -> ->. rewrite !t_hits_of_fill in Hh. discriminate.
  Qed.

  Lemma index_put_ub T V p : valid T -> valid V -> pat_ok (legs T) p -> (forall n, In n (b_sbd T) -> 0 < n) ->
    view_meta p T V -> last p None <> None -> b_blocks V <> [] -> basic_index_put_ T (zpat p) V = UB.
  Proof.
    intros HT HV HP Hpos VM HL HN. pose proof HT as [HM _]. pose proof HV as [MV [HBV HSV]].
    pose proof (view_meta_same HV HM HP VM) as (S1 & S2 & S3 & S4 & S5).
    pose proof (pat_ok_resolves _ _ HP) as HR. pose proof (legs_lens HM) as NL. cbn [view_shape b_sbd] in S3.
    unfold basic_index_put_. rewrite shape_from_ok by auto. cbn [rbind]. rewrite (proj2 (add_check_spec _ _)) by auto. cbn [rbind].
    unfold impl_basic_index_put_. rewrite to_block_basis_spec by auto. destruct (b_blocks V) as [|[k t] v] eqn:E; [congruence|].
    cbn [rfold]. rewrite (output_index_ub _ _ _ _ _ HR HL); [reflexivity|].
    destruct (HBV k t) as [[A1 _] _]; [rewrite E; left; auto|]. rewrite (in_range_length _ _ A1), <- S3. apply keep_length.
    rewrite <- NL. unfold lens. apply map_length.
  Qed.

  (** * squeeze *)
  Lemma unit_dim_spec T d : meta_ok T -> d < b_rank T -> unit_dim T d = Ok (unit_leg (nth d (legs T) [])).
  Proof.
    intros HM Hd. pose proof HM as (M1 & M2 & M3). pose proof (legs_lens HM) as NL. pose proof (legs_length HM) as LL.
    unfold unit_dim. rewrite rnth_Ok with (d := 0) by lia. cbn [rbind].
    assert (Hn : length (nth d (legs T) []) = nth d (b_sbd T) 0).
    { rewrite <- NL. unfold lens. change 0 with (length (@nil nat)). rewrite map_nth. reflexivity. }
    destruct (Nat.eqb_spec (nth d (b_sbd T) 0) 1) as [E|E].
    - unfold section_size. rewrite rnth_Ok with (d := 0) by (rewrite <- M2; apply address_lt; lia). cbn [rbind]. f_equal.
      replace (nth (address (b_sbd T) d 0) (b_ss T) 0) with (nth 0 (nth d (legs T) []) 0).
      + destruct (nth d (legs T) []) as [|x [|y l]]; cbn in Hn; try lia. reflexivity.
      + unfold legs. rewrite <- prange_unpack by lia. unfold prange, address. rewrite nth_firstn_lt', nth_skipn' by lia. reflexivity.
    - f_equal. destruct (nth d (legs T) []) as [|x [|y l]]; cbn in *; auto. congruence.
  Qed.
  Lemma single_nth d n i : i < n -> nth i (single d n) None = if i =? d then Some 0 else None.
  Proof.
    intros H. unfold single. rewrite (nth_indep _ None ((fun i => if i =? d then Some 0 else None) 0)) by (rewrite map_length, seq_length; auto).
    rewrite (map_nth (fun i => if i =? d then Some 0 else None)). rewrite seq_nth by auto. reflexivity.
  Qed.
  Lemma pat_ok_nth (L : list (list nat)) p : length p = length L -> (forall i a, nth i p None = Some a -> a < sum_list (nth i L [])) -> pat_ok L p.
  Proof.
    revert p; induction L as [|l L IH]; intros [|x p] HL H; try discriminate; cbn; auto.
    assert (pat_ok L p) by (apply IH; auto; intros i a E; apply (H (Datatypes.S i) a E)).
    destruct x as [a|]; auto. split; auto. apply (H 0 a eq_refl).
  Qed.
  Lemma unit_leg_spec l : unit_leg l = true <-> l = [1].
  Proof. destruct l as [|x [|y l]]; cbn; try (split; discriminate). rewrite Nat.eqb_eq. split; [intros ->|intros [= ->]]; auto. Qed.

  Lemma squeeze_dim_spec T d : valid T -> d < b_rank T -> (forall n, In n (b_sbd T) -> 0 < n) ->
    (nth d (legs T) [] <> [1] -> squeeze_dim T d = Ok T) /\
    (nth d (legs T) [] = [1] -> exists S, squeeze_dim T d = Ok S /\ valid S /\ view_meta (single d (b_rank T)) T S /\
      forall D, dense_form T D -> dense_form S (d_view (single d (b_rank T)) D)).
  Proof.
    intros HT Hd Hpos. pose proof HT as [HM _]. pose proof (legs_length HM) as LL. unfold squeeze_dim. rewrite unit_dim_spec by auto. cbn [rbind].
    split; intros H.
    - destruct (unit_leg (nth d (legs T) [])) eqn:E; auto. apply unit_leg_spec in E. congruence.
    - rewrite H. cbn [unit_leg]. rewrite Nat.eqb_refl.
      replace (map (fun i => if i =? d then 0%Z else (-1)%Z) (seq 0 (b_rank T))) with (zpat (single d (b_rank T))).
      2:{ unfold zpat, single. rewrite map_map. apply map_ext. intros i. destruct (i =? d); reflexivity. }
      assert (Ls : length (single d (b_rank T)) = b_rank T) by (unfold single; rewrite map_length; apply seq_length).
      destruct (@create_view_spec G R T (single d (b_rank T)) HT) as (S & E & VS & VM & _ & DF); auto.
      + apply pat_ok_nth; [congruence|]. intros i a E. destruct (le_lt_dec (b_rank T) i) as [Hi|Hi]; [rewrite nth_overflow in E by lia; discriminate|].
        rewrite single_nth in E by auto. destruct (Nat.eqb_spec i d) as [->|]; [|discriminate]. injection E as <-. rewrite H. cbn. lia.
      + intros i Hi Hf. rewrite Ls in *. specialize (Hf i ltac:(lia)). rewrite single_nth in Hf by auto.
        destruct (Nat.eqb_spec i d) as [->|]; [rewrite H; reflexivity|congruence].
      + exists S. auto.
  Qed.

  Lemma rowmajor_unit (L : list (list nat)) bp op k : resolves L (unit_dims L) bp op -> length k = length (keep (unit_dims L) L) ->
    rowmajor (lens L) (fill bp k) = rowmajor (lens (keep (unit_dims L) L)) k.
  Proof.
    assert (PK : forall L, prod_list (lens L) = prod_list (lens (keep (unit_dims L) L))).
    { clear. induction L as [|l L IH]; auto. cbn [unit_dims map lens]. fold (unit_dims L). fold (lens L). rewrite prod_list_cons, IH.
      destruct (unit_leg l) eqn:E; cbn [keep]; auto. apply unit_leg_spec in E. subst l. cbn [length]. lia. }
    revert bp op k; induction L as [|l L IH]; intros bp op k HR Hk; [destruct bp, op; cbn in HR; try tauto; reflexivity|].
    cbn [unit_dims map] in HR, Hk |- *. fold (unit_dims L) in *.
    destruct (unit_leg l) eqn:E; destruct bp as [|[b|] bp]; cbn [resolves] in HR; try tauto; destruct op as [|[o|] op]; try tauto.
    - destruct HR as [(H1 & _) HR]. apply unit_leg_spec in E. subst l. cbn [length] in H1. assert (b = 0) by lia. subst b.
      cbn [keep fill lens map rowmajor] in *. change (map (length (A:=nat)) L) with (lens L). rewrite (IH _ _ _ HR Hk). reflexivity.
    - cbn [keep] in Hk. destruct k as [|x k]; [discriminate|]. cbn [keep fill lens map rowmajor]. fold (lens L). fold (lens (keep (unit_dims L) L)).
      rewrite (IH _ _ k HR) by auto. rewrite PK. reflexivity.
  Qed.
  Lemma rowmajor_unit_off (L : list (list nat)) bp op k o : resolves L (unit_dims L) bp op -> length k = length (keep (unit_dims L) L) ->
    length o = length (keep (unit_dims L) L) ->
    prod_list (pick 0 L (fill bp k)) = prod_list (pick 0 (keep (unit_dims L) L) k) /\
    rowmajor (pick 0 L (fill bp k)) (fill op o) = rowmajor (pick 0 (keep (unit_dims L) L) k) o.
  Proof.
    revert bp op k o; induction L as [|l L IH]; intros bp op k o HR Hk Ho.
    - destruct bp, op; cbn in HR; try tauto; destruct k; try discriminate; auto.
    - cbn [unit_dims map] in HR, Hk, Ho |- *. fold (unit_dims L) in *.
      destruct (unit_leg l) eqn:E; destruct bp as [|[b|] bp]; cbn [resolves] in HR; try tauto; destruct op as [|[oo|] op]; try tauto.
      + destruct HR as [(H1 & H2 & _) HR]. apply unit_leg_spec in E. subst l. cbn [length] in H1. assert (b = 0) by lia. subst b. cbn [nth] in H2.
        assert (oo = 0) by lia. subst oo. cbn [keep fill pick nth] in *. destruct (IH _ _ _ _ HR Hk Ho) as [I1 I2].
        rewrite prod_list_cons, I1. cbn [rowmajor]. rewrite I2. lia.
      + cbn [keep] in Hk, Ho. destruct k as [|x k]; [discriminate|]. destruct o as [|y o]; [discriminate|]. cbn [keep fill pick].
        destruct (IH _ _ k o HR) as [I1 I2]; [auto|auto|]. rewrite !prod_list_cons, I1. cbn [rowmajor]. rewrite I1, I2. split; reflexivity.
  Qed.
  Lemma unit_dims_ok (L : list (list nat)) : pat_ok L (unit_dims L).
  Proof. induction L as [|l L IH]; cbn; auto. destruct (unit_leg l) eqn:E; auto. apply unit_leg_spec in E. subst. cbn. split; auto. Qed.

  Lemma squeeze_all_spec T bp op : valid T -> (forall n, In n (b_sbd T) -> 0 < n) ->
    let p := unit_dims (legs T) in resolves (legs T) p bp op ->
    (qprod G (fixed (qe G) bp (qlegs T)) = qe G -> exists S, squeeze_all T = Ok S /\ valid S /\ view_meta p T S /\
      forall D, dense_form T D -> dense_form S (d_view p D)) /\
    (qprod G (fixed (qe G) bp (qlegs T)) <> qe G -> squeeze_all T = Throw InvalidArgument).
  Proof.
    intros HT Hpos p HR. pose proof HT as [HM [HB HS]]. pose proof HM as (M1 & M2 & M3).
    pose proof (legs_length HM) as LL. pose proof (legs_lens HM) as NL. pose proof (qlegs_length HM) as LQ. pose proof (qlegs_lens HM) as NQ.
    assert (HP : pat_ok (legs T) p) by apply unit_dims_ok.
    pose proof (resolves_length _ _ _ _ HR) as (L1 & L2 & L3).
    destruct (view_shape_legs p HM HP) as (A & B & VS). pose proof (view_shape_meta p HM HP) as VM. pose proof VS as [MS _].
    set (S0 := view_shape T p) in *. assert (K1 : b_sbd S0 = lens (keep p (legs T))) by (cbn; rewrite <- NL; unfold lens; apply keep_map).
    assert (EQ : squeeze_all T = reshape_as false T S0).
    { unfold squeeze_all. rewrite (rmapM_pure _ (fun d => unit_leg (nth d (legs T) []))).
      2:{ intros d Hd. apply in_seq in Hd. apply unit_dim_spec; auto. lia. }
      cbn [rbind]. replace (map (fun u : bool => if u then 0%Z else (-1)%Z) _) with (zpat p).
      - rewrite shape_from_ok by auto. reflexivity.
      - rewrite map_map. unfold p, zpat, unit_dims. rewrite map_map. rewrite <- LL. clear.
        induction (legs T) as [|l L IH]; auto. cbn [map length seq]. f_equal; [cbn [nth]; destruct (unit_leg l); reflexivity|].
        rewrite <- seq_shift, map_map. exact IH. }
    assert (LK : forall k, in_range (b_sbd S0) k = true -> length k = length (keep p (legs T))).
    { intros k Hk. rewrite (in_range_length _ _ Hk), K1. apply map_length. }
    assert (SR : forall a b, same_rank (b_sbd T) a (b_sbd S0) b -> a = fill bp b).
    { intros a b (H1 & H2 & H3). pose proof (LK b H2) as Lb.
      assert (H4 : in_range (b_sbd T) (fill bp b) = true) by (rewrite <- NL, (fill_range _ _ _ _ _ HR) by auto; rewrite <- K1; auto).
      apply (rowmajor_inj (b_sbd T)); auto. rewrite H3, K1. rewrite <- NL. symmetry. apply (rowmajor_unit _ _ _ _ HR Lb). }
    assert (SR' : forall b, in_range (b_sbd S0) b = true -> same_rank (b_sbd T) (fill bp b) (b_sbd S0) b).
    { intros b H2. pose proof (LK b H2) as Lb. split; [rewrite <- NL, (fill_range _ _ _ _ _ HR) by auto; rewrite <- K1; auto|].
      split; auto. rewrite K1, <- NL. apply (rowmajor_unit _ _ _ _ HR Lb). }
    assert (PE : prod_list (b_sbd T) = prod_list (b_sbd S0)).
    { rewrite K1, <- NL. unfold p. clear. induction (legs T) as [|l L IH]; auto. cbn [unit_dims map lens]. fold (unit_dims L). fold (lens L). rewrite prod_list_cons, IH.
      destruct (unit_leg l) eqn:E; cbn [keep]; auto. apply unit_leg_spec in E. subst l. cbn [length]. lia. }
    assert (SV : same_volumes T S0).
    { split; auto. intros a b Hab. pose proof Hab as (_ & H2 & _). rewrite (SR _ _ Hab), A.
      apply (rowmajor_unit_off _ _ _ _ (repeat 0 (length (keep p (legs T)))) HR (LK b H2)). apply repeat_length. }
    assert (QF : forall b, in_range (b_sbd S0) b = true -> qprod G (pick (qe G) (qlegs T) (fill bp b)) =
      qop G (qprod G (pick (qe G) (qlegs S0) b)) (qprod G (fixed (qe G) bp (qlegs T)))).
    { intros b Hb. rewrite qprod_fill, (proj1 (resolves_keep _ _ _ _ (qlegs T) HR)), B; auto; [congruence|].
      rewrite (proj1 (resolves_keep _ _ _ _ (qlegs T) HR)), (LK b Hb). apply keep_length. congruence. }
    rewrite EQ. split; intros HQ.
    - assert (SF : same_fluxes T S0).
      { intros a b Hab. pose proof Hab as (_ & H2 & _). rewrite (SR _ _ Hab), (QF b H2), HQ, qop_e_r. reflexivity. }
      destruct (reshape_as_accepts HT MS Hpos SV SF) as (S & E & VS' & R1 & R2 & R3 & R4).
      assert (SB : b_sbd S = b_sbd S0). { pose proof VS' as [MS' _]. rewrite <- (legs_lens MS'), R2. apply (legs_lens MS). }
      exists S. split; auto. split; auto. split.
      + destruct VM as (V1 & V2 & V3 & V4). split; [congruence|]. split; [congruence|]. split.
        * pose proof VS' as [MS' _]. rewrite <- (legs_length MS'), R2, A. reflexivity.
        * intros bp' op' HR'. destruct (V4 _ _ HR') as [V5 V6].
          assert (RS : b_rule S0 = b_rule T).
          { destruct (resolves_unique _ _ _ _ HR') as [-> _]. destruct (resolves_unique _ _ _ _ HR) as [E1 _]. rewrite <- E1, HQ, qop_e_r in V5. auto. }
          split; [rewrite R1; rewrite RS in V5; exact V5|]. intros k Hk. rewrite SB in Hk. rewrite <- (V6 k Hk). unfold allowed. rewrite SB, R3, R1, RS. tauto.
      + intros D [D1 D2]. split; [cbn [d_view dsh]; rewrite D1, R2, A; apply keep_map|]. intros k o Hk Ho. rewrite R2, A in *. rewrite SB in Hk.
        assert (Lo : length o = length (keep p (legs T))) by (rewrite (in_range_length _ _ Ho); apply pick_length; apply LK; auto).
        cbn [d_view dv]. rewrite <- (fill_place _ _ _ _ _ _ HR) by auto. destruct (SR' k Hk) as (Q1 & Q2 & Q3).
        assert (Ho' : in_range (pick 0 (legs T) (fill bp k)) (fill op o) = true) by (rewrite (fill_range_off _ _ _ _ _ _ HR) by auto; auto).
        rewrite D2 by auto. symmetry. destruct (R4 (fill bp k) k) as [_ R5]; [rewrite SB; apply SR'; auto|]. apply R5.
        split; auto. rewrite R2. split; auto. apply (rowmajor_unit_off _ _ _ _ _ HR); auto.
    - apply reshape_as_rejects; auto. intros [_ SF]. apply HQ.
      assert (HZ : in_range (b_sbd S0) (zeros (length (b_sbd S0))) = true).
      { apply zeros_in_range. rewrite <- PE. apply prod_pos; auto. }
      pose proof (SF _ _ (SR' _ HZ)) as E. rewrite (QF _ HZ) in E.
      apply (qop_cancel_l G (qprod G (pick (qe G) (qlegs S0) (zeros (length (b_sbd S0)))))). rewrite qop_e_r. exact E.
  Qed.
End P.

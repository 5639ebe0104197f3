(** Block tensors follow dense ones through the update of two sites: the operations and the whole update. *)
From Verif Require Import Base Quantity QuantityProofs FlatMap SpecFlatMap FlatMapProofs FlatMapThms Ring Index SpecIndex IndexProofs Dense BTensor SpecBTensor LegsProofs BTensorProofs BTensorThms
  BTensorArith SpecArith ArithProofs ArithThms Tensordot SpecTensordot TensordotProofs TensordotThms Bcast SpecBcast BcastMain View Chain SpecChain ChainProofs ChainThms ChainInst
  BcastProofs BcastThms ModelsBlockProofs Num Eig2 SpecEig2 Eig2Proofs Lanczos SpecLanczos LanczosProofs BLanczos SpecBLanczos BLanczosProofs.
Set Implicit Arguments.

Section P.
  Variable G : abgroup.
  Variable N : numeric.
  Variable imax : nat.
  Notation bt := (btensor G N).
  Notation d := (dense N).
  Notation tl := (@blegs G N).
  Notation dual := (@bdual G).
  Notation den := (@stored G N imax).
  Notation bk := (bk0 G).
  Add Ring Rr : (ring_th N).
  Notation all4 := [0; 1; 2; 3].

  Lemma sqrt_0 : n_sqrt N rz = rz.
  Proof.
    assert (Q : rmul (n_sqrt N rz) (n_sqrt N rz) = rz) by (apply n_sqrt_sq, le_refl). apply mul_zero in Q as [Q|Q]; exact Q.
  Qed.
  Lemma zip_deq ip f (a b : d) : dsh a = dsh b -> exists C, t_zip ip f a b = Ok C /\ deq C (d_zip f a b).
  Proof.
    intros S. unfold t_zip. rewrite <- S, bc_rev, rev_involutive. assert (Q : leqb (dsh a) (dsh a) = true) by (apply leqb_eq; reflexivity). rewrite Q, andb_false_r.
    eexists. split; [reflexivity|]. split; [reflexivity|]. cbn [dsh dv d_zip]. intros i Hi. rewrite !bproj_self by exact Hi. reflexivity.
  Qed.
  Lemma zip_ip f (a b D : d) : t_zip false f a b = Ok D -> dsh D = dsh a -> t_zip true f a b = Ok D.
  Proof.
    unfold t_zip. destruct (bc_shape _ _) as [r|]; [|discriminate]. cbn [andb]. intros [= <-] S. cbn [dsh] in S. rewrite S.
    assert (Q : leqb (dsh a) (dsh a) = true) by (apply leqb_eq; reflexivity). rewrite Q. reflexivity.
  Qed.
  Lemma den_same A B DA DB : den A DA -> den B DB -> tl A = tl B -> dsh DA = dsh DB.
  Proof. intros HA HB E. rewrite (stored_shape HA), (stored_shape HB), E. reflexivity. Qed.
  Lemma in_assoc (T : bt) k t : sorted lexb (b_blocks T) -> In (k, t) (b_blocks T) -> has T k.
  Proof.
    intros S H E. apply (In_assoc KO) in H; auto. rewrite H in E. discriminate.
  Qed.

  Lemma sim_plus A B DA DB : den A DA -> den B DB -> tl A = tl B -> b_rule A = b_rule B ->
    exists C D, b_plus A B = Ok C /\ t_zip false radd DA DB = Ok D /\ den C D /\ tl C = tl A /\ b_rule C = b_rule A /\ forall k, has C k <-> has A k \/ has B k.
  Proof.
    intros HA HB T R. pose proof (den_same HA HB T) as S. pose proof HA as (VA & FA & IA). pose proof HB as (VB & FB & IB).
    pose proof (@meta_eq G N A B (proj1 VA) (proj1 VB) T R) as M. destruct (add_dense VA VB M FA FB) as (C & EC & MC & VC & FC).
    destruct (add_exact ro VA VB M) as (C' & EC' & _ & _ & KC & _). rewrite EC in EC'. injection EC' as <-.
    destruct (zip_deq false radd _ _ S) as (D & ED & QD). exists C, D. split; [exact EC|]. split; [exact ED|]. split.
    { apply stored_deq with (d_zip radd DA DB). - split; [exact VC|]. split; [exact FC|]. rewrite <- (proj1 (proj2 (proj2 MC))). exact IA.
      - destruct QD as [Q1 Q2]. split; [auto|]. intros i Hi. symmetry. apply Q2. rewrite Q1. exact Hi. }
    split; [symmetry; apply (@meta_tl G N _ _ MC)|]. split; [symmetry; apply MC|]. intros k. unfold has. specialize (KC k).
    destruct (assoc leqb k (b_blocks C)), (assoc leqb k (b_blocks A)), (assoc leqb k (b_blocks B)); intuition (try discriminate; try congruence).
  Qed.
  Lemma sim_minus A B DA DB : den A DA -> den B DB -> tl A = tl B -> b_rule A = b_rule B -> (forall k, has A k -> exists k', has B k' /\ lexb k k' = false) ->
    exists C D, b_minus_ A B = Ok C /\ t_zip true rsub DA DB = Ok D /\ den C D /\ tl C = tl A /\ b_rule C = b_rule A /\ forall k, has C k <-> has A k \/ has B k.
  Proof.
    intros HA HB T R L. pose proof (den_same HA HB T) as S. pose proof HA as (VA & FA & IA). pose proof HB as (VB & FB & IB).
    pose proof (@meta_eq G N A B (proj1 VA) (proj1 VB) T R) as M. destruct (@axpy_dense G N A B (ropp ro) DA DB VA VB M FA FB) as (C & EC & MC & VC & FC).
    { intros k t H. apply in_assoc in H; [|apply VA]. apply L in H as (k' & H1 & H2). unfold has in H1. destruct (assoc leqb k' (b_blocks B)) as [t'|] eqn:E; [|congruence].
      exists k', t'. split; [apply (assoc_In KO _ _ E)|exact H2]. }
    destruct (add_exact (ropp ro) VA VB M) as (C' & EC' & _ & _ & KC & _). rewrite EC in EC'. injection EC' as <-.
    destruct (zip_deq true rsub _ _ S) as (D & ED & QD). exists C, D. split; [exact EC|]. split; [exact ED|]. split.
    { apply stored_deq with (d_zip (fun x y => radd x (rmul (ropp ro) y)) DA DB). - split; [exact VC|]. split; [exact FC|]. rewrite <- (proj1 (proj2 (proj2 MC))). exact IA.
      - destruct QD as [Q1 Q2]. split; [auto|]. intros i Hi. rewrite Q2 by (rewrite Q1; exact Hi). cbn. unfold rsub. ring. }
    split; [symmetry; apply (@meta_tl G N _ _ MC)|]. split; [symmetry; apply MC|]. intros k. unfold has. specialize (KC k).
    destruct (assoc leqb k (b_blocks C)), (assoc leqb k (b_blocks A)), (assoc leqb k (b_blocks B)); intuition (try discriminate; try congruence).
  Qed.
  Lemma sim_div A s DA Ds : den A DA -> den s Ds -> tl s = [] -> b_rule s = qe G -> has s [] ->
    exists C D, b_div_ (ndiv N) A s = Ok C /\ t_zip true (ndiv N) DA Ds = Ok D /\ den C D /\ tl C = tl A /\ b_rule C = b_rule A /\ forall k, has C k <-> has A k.
  Proof.
    intros HA Hs T R P. destruct (@sim_scalar_r G N imax (ndiv N) A s DA Ds HA Hs T R) as (C & D & EC & ED & DC & TC & RC & KC).
    - intros y. unfold ndiv. ring.
    - left. exact P.
    - exists C, D. split; [|split; [|split; [exact DC|split; [exact TC|split; [exact RC|]]]]].
      + unfold b_div_. pose proof HA as (VA & _). pose proof Hs as (Vs & _). destruct (tl_nil N (proj1 Vs) T) as (R0 & L0 & _). rewrite inplace_thm; auto; [|lia].
        apply bc_scalar_r; auto. apply VA.
      + apply zip_ip; [exact ED|]. apply (den_same DC HA TC).
      + intros k. rewrite KC. tauto.
  Qed.
  Lemma has_map f (A : bt) k : has (bt_elementwise f A) k <-> has A k.
  Proof. unfold has, bt_elementwise. cbn [map_blocks with_blocks b_blocks]. rewrite assoc_map_val. destruct (assoc leqb k (b_blocks A)); cbn; split; intros H; try discriminate; intuition congruence. Qed.
  Lemma sim_map f A DA : den A DA -> f rz = rz -> den (bt_elementwise f A) (d_map f DA) /\ tl (bt_elementwise f A) = tl A /\ b_rule (bt_elementwise f A) = b_rule A.
  Proof.
    intros (VA & FA & IA) Z. split; [|split; reflexivity]. split; [apply elementwise_valid; auto|]. split; [|exact IA]. apply elementwise_iff; auto.
  Qed.
  Lemma sim_conj A DA : den A DA -> den (conj A) (t_conj DA) /\ tl (conj A) = map dual (tl A) /\ b_rule (conj A) = qinv G (b_rule A) /\ forall k, has (conj A) k <-> has A k.
  Proof.
    intros HA. destruct (stored_conj HA) as [T D]. split; [exact D|]. split; [exact T|]. split; [reflexivity|].
    intros k. unfold has, conj. cbn. rewrite assoc_map_val. destruct (assoc leqb k (b_blocks A)); cbn; split; intros H; try discriminate; intuition congruence.
  Qed.

  (** Tensors without dimensions. *)
  Lemma scalar_blocks (T : bt) D : den T D -> tl T = [] -> has T [] -> exists t, b_blocks T = [([], t)] /\ dsh t = [] /\ dv t [] = dv D [] /\ dsh D = [].
  Proof.
    intros HT E H. pose proof HT as (V & F & _). destruct (tl_nil N (proj1 V) E) as (R0 & L0 & _). assert (S0 : b_sbd T = []) by (rewrite <- (legs_lens (proj1 V)), L0; reflexivity).
    assert (K : forall k t, In (k, t) (b_blocks T) -> k = []).
    { intros k t Hk. apply in_assoc in Hk; [|apply V]. apply has_range in Hk; auto. rewrite S0 in Hk. destruct k; [reflexivity|discriminate]. }
    unfold has in H. destruct (assoc leqb [] (b_blocks T)) as [t|] eqn:EA; [|congruence]. pose proof V as (_ & _ & SO). pose proof (valid_assoc _ V EA) as [_ St].
    assert (HD : dv t [] = dv D []).
    { destruct F as [_ F]. specialize (F [] []). rewrite S0, L0 in F. specialize (F eq_refl eq_refl). unfold bentry in F. rewrite EA in F. symmetry. exact F. }
    assert (SD : dsh D = []) by (destruct F as [F _]; rewrite F, L0; reflexivity). rewrite L0 in St.
    exists t. split; [|auto].
    destruct (b_blocks T) as [|[k1 t1] [|[k2 t2] r]] eqn:EB; [discriminate| |].
    - assert (k1 = []) as -> by (eapply K; left; reflexivity). cbn in EA. congruence.
    - exfalso. assert (k1 = []) as -> by (eapply K; left; reflexivity). assert (k2 = []) as -> by (eapply K; right; left; reflexivity).
      apply sorted_cons in SO as [SO _]. specialize (SO _ (or_introl eq_refl)). discriminate SO.
  Qed.

  Definition sc (T : bt) (D : d) : Prop := den T D /\ tl T = [] /\ b_rule T = qe G /\ has T [].
  Definition one (v : N) : bt := @mkB G N (qe G) 0 [] [] [] [([], mkD [] (fun _ => v))].
  Lemma one_sc v : sc (one v) (mkD [] (fun _ => v)).
  Proof.
    assert (V : valid (one v)).
    { split; [split; [reflexivity|split; reflexivity]|]. split; [|repeat constructor].
      intros k t [[= <- <-]|[]]. repeat split. }
    split; [|split; [reflexivity|split; [reflexivity|discriminate]]]. split; [exact V|]. split; [|intros ? []].
    split; [reflexivity|]. intros k o Hk Ho. destruct k; [|discriminate]. reflexivity.
  Qed.
  Lemma x_of_sc T D : sc T D -> x_of T = Ok (qe G, Some (Fin (dv D []))) /\ t_item D = Ok (dv D []).
  Proof.
    intros (H & E & R & P). destruct (scalar_blocks H E P) as (t & EB & St & Vt & SD). unfold x_of, d_item, t_item. rewrite EB, St, SD, R. cbn. rewrite Vt. auto.
  Qed.
  Lemma x_eig_eq (x0 x1 y : N) : x_eig (qe G, Some (Fin x0)) (qe G, Some (Fin x1)) (qe G, Some (Fin y)) =
    match eig2x2 x0 x1 y with Ok (E, o, n) => Ok ((qe G, Some E), (qe G, Some o), (qe G, Some n)) | Throw e => Throw e | UB => UB end.
  Proof.
    assert (Q : qeqb G (qe G) (qe G) = true) by (apply qeqb_spec; reflexivity). assert (I : qinv G (qe G) = qe G) by apply qinv_e.
    assert (O : qop G (qe G) (qe G) = qe G) by apply qop_e_r.
    unfold x_eig, minus, plus, x_add. cbn [fst snd]. rewrite Q. cbn [negb rbind]. unfold x_map, x_zip, x_conj. cbn [fst snd option_map]. rewrite I, O, Q. cbn [negb rbind fst snd option_map].
    rewrite Q. cbn [negb rbind fst snd option_map]. rewrite ?O, ?Q. cbn [negb rbind fst snd option_map]. rewrite ?O, ?Q. cbn [negb rbind fst snd option_map]. rewrite ?O, ?Q. cbn [negb rbind fst snd option_map].
    unfold x_true, x_item, x_like. cbn [snd fst]. rewrite ?O, ?Q. unfold eig2x2.
    change (f_add (Fin x0) (f_opp (Fin x1))) with (Fin (rsub x0 x1)). cbv zeta.
    change (f_mul (Fin (rsub x0 x1)) (Fin (rsub x0 x1))) with (Fin (rmul (rsub x0 x1) (rsub x0 x1))).
    change (f_mul (Fin (rmul (two N) (two N))) (f_mul (Fin (rconj y)) (Fin y))) with (Fin (rmul (rmul (two N) (two N)) (rmul (rconj y) y))).
    change (f_add (Fin (rmul (rsub x0 x1) (rsub x0 x1))) (Fin (rmul (rmul (two N) (two N)) (rmul (rconj y) y)))) with (Fin (radd (rmul (rsub x0 x1) (rsub x0 x1)) (rmul (rmul (two N) (two N)) (rmul (rconj y) y)))).
    set (crit := f_sqrt (Fin (radd (rmul (rsub x0 x1) (rsub x0 x1)) (rmul (rmul (two N) (two N)) (rmul (rconj y) y))))).
    change (f_add (Fin x0) (Fin x1)) with (Fin (radd x0 x1)). change (f_opp (Fin x1)) with (Fin (ropp x1)).
    set (E0 := f_div (f_add (Fin (radd x0 x1)) (f_opp crit)) (Fin (two N))). set (delt := f_add E0 (Fin (ropp x1))). set (o := f_sqrt (f_div delt (f_opp crit))).
    destruct (f_eqb _ _ || is_nan o).
    - reflexivity.
    - cbn [x_check snd]. destruct (is_nan o); [reflexivity|]. cbn [rbind orb]. unfold x_check. cbn [snd]. destruct (is_nan _); reflexivity.
  Qed.
  Lemma sim_eig a0 a1 b D0 D1 Db : sc a0 D0 -> sc a1 D1 -> sc b Db ->
    match t_eig D0 D1 Db with
    | Ok (E', o', n') => exists E o n, b_eig a0 a1 b = Ok (E, o, n) /\ sc E E' /\ sc o o' /\ sc n n'
    | Throw e => b_eig a0 a1 b = Throw e
    | UB => b_eig a0 a1 b = UB
    end.
  Proof.
    intros H0 H1 Hb. apply x_of_sc in H0 as [E0 F0], H1 as [E1 F1], Hb as [Eb Fb]. unfold t_eig, b_eig. rewrite E0, E1, Eb, F0, F1, Fb. cbn [rbind]. rewrite x_eig_eq.
    destruct (eig2x2 _ _ _) as [[[E o] n]|e|]; cbn [rbind]; [|reflexivity|reflexivity].
    destruct E as [E| |]; cbn [rbind of_x snd fst]; [|reflexivity|reflexivity].
    destruct o as [o| |]; cbn [rbind of_x snd fst]; [|reflexivity|reflexivity].
    destruct n as [n| |]; cbn [rbind of_x snd fst]; [|reflexivity|reflexivity].
    exists (one E), (one o), (one n). split; [reflexivity|]. split; [apply one_sc|]. split; apply one_sc.
  Qed.
  Lemma one_nonzero : ro <> rz :> N.
  Proof. apply n_one. Qed.
  Lemma sim_large eps b Db : sc b Db -> b_large eps b = t_large eps Db.
  Proof.
    intros (H & E & R & P). destruct (scalar_blocks H E P) as (t & EB & St & Vt & SD). unfold b_large, t_large, t_item, item, bt_elementwise. cbn [map_blocks with_blocks b_blocks]. rewrite EB. cbn [map].
    unfold d_item. cbn [d_map dsh dv fst snd]. rewrite St, SD. cbn. rewrite Vt. change (1 =? 1) with true. cbn [rbind]. destruct (n_leb N eps _); cbv iota.
    - destruct (reqb (ro : N) rz) eqn:Q; [|reflexivity]. apply reqb_spec in Q. destruct (one_nonzero Q).
    - assert (Q : reqb (rz : N) rz = true) by (apply reqb_spec; reflexivity). rewrite Q. reflexivity.
  Qed.

  (** The Hamiltonian of two sites between its environments. *)
  Definition hkeys (L H E s P : bt) : Prop := exists X Y, b_rank X = 5 /\ b_rank Y = 5 /\
    tdot_blocks L s [0] [0] X /\ tdot_blocks X H [0; 2; 3] [0; 4; 5] Y /\ tdot_blocks Y E [1; 4] [0; 1] P.
  Lemma blocks_mono (A A' B B' C C' : bt) d1 d2 : tdot_blocks A B d1 d2 C -> tdot_blocks A' B' d1 d2 C' -> b_rank A = b_rank A' -> b_rank B = b_rank B' ->
    (forall k, has A k -> has A' k) -> (forall k, has B k -> has B' k) -> forall k, has C k -> has C' k.
  Proof.
    intros HC HC' RA RB IA IB k Hk. apply HC in Hk as (k1 & k2 & H1 & H2 & H3 & H4). apply HC'. exists k1, k2. rewrite <- RA, <- RB. split; [apply IA, H1|]. split; [apply IB, H2|]. auto.
  Qed.
  Lemma hkeys_mono (L H E s s' P P' : bt) : hkeys L H E s P -> hkeys L H E s' P' -> b_rank s = b_rank s' -> (forall k, has s k -> has s' k) -> forall k, has P k -> has P' k.
  Proof.
    intros (X & Y & RX & RY & B1 & B2 & B3) (X' & Y' & RX' & RY' & B1' & B2' & B3') R I.
    apply (blocks_mono B3 B3'); auto; [congruence|]. apply (blocks_mono B2 B2'); auto; [congruence|]. apply (blocks_mono B1 B1'); auto.
  Qed.
  Ltac small := cbn; intros; repeat match goal with H : _ \/ _ |- _ => destruct H end; try contradiction; subst; lia.
  Ltac dist := repeat (constructor; [cbn; intuition congruence|]); constructor.

  Section Env.
    Variables (L H E : bt) (DL DH DE : d) (x p p' x' o o' : list nat * list G).
    Hypothesis (HL : den L DL) (HH : den H DH) (HE : den E DE).
    Hypothesis (TL : tl L = [x; o; dual x]) (TH : tl H = [dual o; p; p'; o'; dual p; dual p']) (TE : tl E = [dual x'; dual o'; x']).
    Hypothesis CV : conserving L H E.
    Notation ts := [dual x; p; p'; x'].
    Lemma sim_h2s s Ds : den s Ds -> tl s = ts ->
      exists P D, hamil2site_times_state (tensordot imax) s H L E = Ok P /\ hamil2site_times_state t_tdot Ds DH DL DE = Ok D /\ den P D /\ tl P = ts /\ b_rule P = b_rule s /\ hkeys L H E s P.
    Proof.
      intros Hs Ts. unfold hamil2site_times_state.
      destruct (@sim_tdot G N imax _ _ _ _ [0] [0] HL Hs) as (X & DX & EX & FX & HX & TX & RX & BX); try (rewrite ?TL, ?Ts; solve [small | dist | reflexivity | cbn; rewrite ?bdual_dual; reflexivity]).
      rewrite EX, FX. cbn [rbind]. rewrite TL, Ts in TX. change (tl X = [o; dual x; p; p'; x']) in TX.
      destruct (@sim_tdot G N imax _ _ _ _ [0; 2; 3] [0; 4; 5] HX HH) as (Y & DY & EY & FY & HY & TY & RY & BY); try (rewrite ?TX, ?TH; solve [small | dist | reflexivity | cbn; rewrite ?bdual_dual; reflexivity]).
      rewrite EY, FY. cbn [rbind]. rewrite TX, TH in TY. change (tl Y = [dual x; x'; p; p'; o']) in TY.
      destruct (@sim_tdot G N imax _ _ _ _ [1; 4] [0; 1] HY HE) as (Z & DZ & EZ & FZ & HZ & TZ & RZ & BZ); try (rewrite ?TY, ?TE; solve [small | dist | reflexivity | cbn; rewrite ?bdual_dual; reflexivity]).
      rewrite TY, TE in TZ. change (tl Z = ts) in TZ. exists Z, DZ. split; [exact EZ|]. split; [exact FZ|]. split; [exact HZ|]. split; [exact TZ|]. split.
      - rewrite RZ, RY, RX. unfold conserving in CV. rewrite !qop_assoc in *. rewrite (qop_comm G (b_rule L) (b_rule s)). rewrite <- !qop_assoc in *. rewrite CV. apply qop_e_r.
      - exists X, Y. split; [rewrite <- (blegs_length (proj1 (proj1 HX))), TX; reflexivity|]. split; [rewrite <- (blegs_length (proj1 (proj1 HY))), TY; reflexivity|]. auto.
    Qed.
    Lemma sim_full a b Da Db : den a Da -> den b Db -> length (tl a) = 4 -> tl b = map dual (tl a) -> b_rule b = qinv G (b_rule a) -> (exists k, has a k /\ has b k) ->
      exists C D, tensordot imax a b all4 all4 = Ok C /\ t_tdot Da Db all4 all4 = Ok D /\ sc C D.
    Proof.
      intros Ha Hb La Tb R (k & K1 & K2). destruct (tl a) as [|t1 [|t2 [|t3 [|t4 [|? ?]]]]] eqn:Ta; try discriminate.
      destruct (@sim_tdot G N imax _ _ _ _ all4 all4 Ha Hb) as (X & DX & EX & FX & HX & TX & RX & BX); try (rewrite ?Ta, ?Tb; solve [small | dist | reflexivity | cbn; rewrite ?bdual_dual; reflexivity]).
      exists X, DX. split; [exact EX|]. split; [exact FX|]. split; [exact HX|]. rewrite Ta, Tb in TX. split; [exact TX|]. split; [rewrite RX, R; apply qop_inv_r|].
      apply BX. exists k, k. split; [exact K1|]. split; [exact K2|]. split; [reflexivity|]. rewrite <- (blegs_length (proj1 (proj1 Ha))), <- (blegs_length (proj1 (proj1 Hb))), Ta, Tb. reflexivity.
    Qed.
    Lemma rank_tl (A B : bt) DA DB : den A DA -> den B DB -> tl A = tl B -> b_rank A = b_rank B.
    Proof. intros HA HB T. rewrite <- (blegs_length (proj1 (proj1 HA))), <- (blegs_length (proj1 (proj1 HB))), T. reflexivity. Qed.
    Lemma dual_tl l : map dual (map dual l) = l.
    Proof. rewrite map_map. rewrite <- (map_id l) at 2. apply map_ext. apply bdual_dual. Qed.

    Variables (eps : N) (s P : bt) (Ds : d).
    Hypothesis (Hs : den s Ds) (Ts : tl s = ts) (EP : hamil2site_times_state (tensordot imax) s H L E = Ok P) (RE : reached P s).
    Lemma sim_lanczos : exists psi a0 a1 b Dp D0 D1 Db, b_lanczos imax eps s H L E = Ok (psi, a0, a1, b) /\ t_lanczos eps Ds DH DL DE = Ok (Dp, D0, D1, Db) /\
      sc a0 D0 /\ sc a1 D1 /\ sc b Db /\ den psi Dp /\ tl psi = ts /\ b_rule psi = b_rule s.
    Proof.
      destruct (sim_h2s Hs Ts) as (P' & DP & EP' & FP & HP & TP & RP & BP). rewrite EP in EP'. injection EP' as <-. destruct RE as [(k0 & K1 & K2) RL].
      destruct (sim_conj Hs) as (Hcs & Tcs & Rcs & Kcs).
      destruct (@sim_full P (conj s) DP (t_conj Ds) HP Hcs) as (a0 & D0 & E0 & F0 & S0).
      { rewrite TP. reflexivity. } { rewrite Tcs, Ts, TP. reflexivity. } { rewrite Rcs, RP. reflexivity. } { exists k0. split; [exact K1|]. apply Kcs, K2. }
      pose proof S0 as (H0 & T0 & R0 & P0).
      destruct (@sim_scalar_r G N imax rmul s a0 Ds D0 Hs H0 T0 R0) as (sa & Dsa & Esa & Fsa & Hsa & Tsa & Rsa & Ksa); [intros; ring|left; exact P0|].
      destruct (@sim_minus P sa DP Dsa HP Hsa) as (psi & Dp & Epsi & Fpsi & Hpsi & Tpsi & Rpsi & Kpsi); [rewrite TP, Tsa, Ts; reflexivity|rewrite RP, Rsa; reflexivity| |].
      { intros k Hk. apply RL in Hk as (k' & Q1 & Q2). exists k'. split; [|exact Q2]. apply Ksa. auto. }
      rewrite TP in Tpsi. rewrite RP in Rpsi. assert (Kp : forall k, has s k -> has psi k) by (intros k Hk; apply Kpsi; right; apply Ksa; auto).
      destruct (sim_conj Hpsi) as (Hcp & Tcp & Rcp & Kcp).
      destruct (@sim_full psi (conj psi) Dp (t_conj Dp) Hpsi Hcp) as (bb & Dbb & Ebb & Fbb & Sbb).
      { rewrite Tpsi. reflexivity. } { exact Tcp. } { exact Rcp. } { exists k0. split; [apply Kp, K2|]. apply Kcp, Kp, K2. }
      assert (Sb : sc (bt_elementwise (n_sqrt N) bb) (d_map (n_sqrt N) Dbb)).
      { destruct Sbb as (Q1 & Q2 & Q3 & Q4). destruct (@sim_map (n_sqrt N) bb Dbb Q1 sqrt_0) as (M1 & M2 & M3). split; [exact M1|]. split; [rewrite M2; exact Q2|]. split; [rewrite M3; exact Q3|]. apply has_map, Q4. }
      set (b := bt_elementwise (n_sqrt N) bb) in *. set (Db := d_map (n_sqrt N) Dbb) in *.
      assert (Q : exists r psi2 Dp2, t_large eps Db = Ok r /\ (if r : bool then b_div_ (ndiv N) psi b else Ok psi) = Ok psi2 /\ (if r then t_zip true (ndiv N) Dp Db else Ok Dp) = Ok Dp2 /\
        den psi2 Dp2 /\ tl psi2 = ts /\ b_rule psi2 = b_rule s /\ forall k, has psi2 k <-> has psi k).
      { pose proof Sb as (Hb & Tb & Rb & Pb). destruct (scalar_blocks Hb Tb Pb) as (_ & _ & _ & _ & SD).
        assert (EL : exists r, t_large eps Db = Ok r) by (unfold t_large, t_item; cbn [d_map dsh]; rewrite SD; eexists; reflexivity). destruct EL as [[|] EL].
        - destruct (@sim_div psi b Dp Db Hpsi Hb Tb Rb Pb) as (psi2 & Dp2 & E2 & F2 & H2 & T2 & R2 & K3). exists true, psi2, Dp2. rewrite T2, R2. auto 10.
        - exists false, psi, Dp. split; [exact EL|]. split; [reflexivity|]. split; [reflexivity|]. split; [exact Hpsi|]. split; [exact Tpsi|]. split; [exact Rpsi|]. intros; reflexivity. }
      destruct Q as (r & psi2 & Dp2 & EL & E2 & F2 & H2 & T2 & R2 & K3).
      destruct (sim_h2s H2 T2) as (hp & Dhp & Ehp & Fhp & Hhp & Thp & Rhp & Bhp).
      assert (Khp : forall k, has P k -> has hp k).
      { apply (hkeys_mono BP Bhp); [rewrite (rank_tl Hs H2); [reflexivity|congruence]|]. intros k Hk. apply K3, Kp, Hk. }
      destruct (sim_conj H2) as (Hc2 & Tc2 & Rc2 & Kc2).
      destruct (@sim_full (conj psi2) hp (t_conj Dp2) Dhp Hc2 Hhp) as (a1 & D1 & E1 & F1 & S1).
      { rewrite Tc2, map_length, T2. reflexivity. } { rewrite Tc2, dual_tl, T2, Thp. reflexivity. } { rewrite Rc2, qinv_inv, Rhp. reflexivity. } { exists k0. split; [apply Kc2, K3, Kp, K2|apply Khp, K1]. }
      exists psi2, a0, a1, b, Dp2, D0, D1, Db. split; [|split].
      - unfold b_lanczos, one_step_lanczos. rewrite EP. cbn [rbind]. rewrite E0. cbn [rbind]. unfold b_mul. rewrite Esa. cbn [rbind]. rewrite Epsi. cbn [rbind]. rewrite Ebb. cbn [rbind].
        fold b. rewrite (@sim_large eps b Db Sb), EL. cbn [rbind]. rewrite E2. cbn [rbind]. rewrite Ehp. cbn [rbind]. rewrite E1. reflexivity.
      - unfold t_lanczos, one_step_lanczos. rewrite FP. cbn [rbind]. rewrite F0. cbn [rbind]. rewrite Fsa. cbn [rbind]. rewrite Fpsi. cbn [rbind]. rewrite Fbb. cbn [rbind].
        fold Db. rewrite EL. cbn [rbind]. rewrite F2. cbn [rbind]. rewrite Fhp. cbn [rbind]. rewrite F1. reflexivity.
      - auto 10.
    Qed.
    Lemma sim_update : same_outcome (fun r r' => den (fst r) (fst r') /\ den (snd r) (snd r') /\ tl (fst r) = [] /\ tl (snd r) = tl s /\ b_rule (snd r) = b_rule s)
      (b_update imax eps s H L E) (t_update eps Ds DH DL DE).
    Proof.
      destruct sim_lanczos as (psi & a0 & a1 & b & Dp & D0 & D1 & Db & EL & FL & S0 & S1 & Sb & Hp & Tp & Rp). unfold b_update, t_update, two_sites_update.
      unfold b_lanczos in EL. unfold t_lanczos in FL. rewrite EL, FL. cbn [rbind]. pose proof (sim_eig S0 S1 Sb) as Q. destruct (t_eig D0 D1 Db) as [[[E' o1] n1]|e|].
      2: { rewrite Q. reflexivity. } 2: { rewrite Q. exact I. }
      destruct Q as (Ee & oc & nc & Q & SE & So & Sn). rewrite Q. cbn [rbind].
      destruct So as (Ho & To & Ro & Po). destruct Sn as (Hn & Tn & Rn & Pn). destruct SE as (HEe & TEe & _).
      destruct (@sim_scalar_l G N imax rmul s oc Ds o1 Hs Ho To Ro) as (os & Dos & Eos & Fos & Hos & Tos & Ros & _); [rewrite Ts; cbn; lia|intros; ring|intros; ring|].
      destruct (@sim_scalar_l G N imax rmul psi nc Dp n1 Hp Hn Tn Rn) as (np & Dnp & Enp & Fnp & Hnp & Tnp & Rnp & _); [rewrite Tp; cbn; lia|intros; ring|intros; ring|].
      unfold b_mul. rewrite Eos, Fos. cbn [rbind]. rewrite Enp, Fnp. cbn [rbind].
      destruct (@sim_plus os np Dos Dnp Hos Hnp) as (U & DU & EU & FU & HU & TU & RU & _); [rewrite Tos, Tnp, Ts, Tp; reflexivity|rewrite Ros, Rnp; auto|].
      rewrite EU, FU. cbn [rbind same_outcome fst snd]. rewrite TU, RU. auto.
    Qed.
  End Env.
End P.

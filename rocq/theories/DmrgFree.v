(** Runs of DMRG on dense tensors from chains in any form: what the isometries on both sides were before the first sweep does not matter. *)
From Verif Require Import Base Ring Index SpecIndex Dense IndexProofs BTensor BTensorArith Bcast Tensordot SpecTensordot Chain SpecChain ChainProofs ChainThms ChainInst ChainEnd
  SpecMove SpecSvd SvdDense MoveOc MoveProofs MoveInst Truncate SpecTruncate TruncateProofs BSvd BTrunc Num Lanczos SpecLanczos LanczosVec LanczosProofs SiteUpdate SpecSiteUpdate ChainNorm ChainEnergy SiteUpdateProofs SiteUpdateThms
  Dmrg DmrgProofs DmrgRun SpecDmrgRun DmrgRunProofs DmrgRunThms.
Set Implicit Arguments.

Section U.
  Context {N : numeric} {W : weights}.
  Notation t := (dense N).
  Notation idk := (fun k : nat => k).
  Notation fit := (mps_fit (@dsh N) idk).
  Notation ofit := (mpo_fit (@dsh N) idk).
  Notation sizes := (map (@size N 1)).
  Variable eps : N.
  Variable dsvd : t -> t * t * t.
  Variable wt : N -> W.
  Variable thr : W.
  Variables mn mx : Z.
  Hypothesis H_thin : forall M, (exists m n, dsh M = [m; n]) -> thin M (dsvd M) /\ real_entries (snd (fst (dsvd M))).
  Hypothesis H_val : forall M, (exists m n, dsh M = [m; n]) -> descending (snd (fst (dsvd M))).
  Hypothesis Hmn : (1 <= mn <= mx)%Z.
  (** An update that returns, whatever the rest of the chain. *)
  Lemma site_update_free (fwd : bool) pre a a' post hpre h h' hpost (l e : t) x o x' o' y p k p' y' Le He Re Et b b' :
    dsh l = [x; o; x] -> dsh e = [x'; o'; x'] -> length hpre = length pre -> fit (pre ++ [a; a'] ++ post) x x' -> ofit (hpre ++ [h; h'] ++ hpost) (pre ++ [a; a'] ++ post) (pre ++ [a; a'] ++ post) o o' ->
    dsh a = [y; p; k] -> dsh a' = [k; p'; y'] ->
    left_envs t_tdot t_conj hpre pre l = Ok Le -> right_envs t_tdot t_conj hpost post e = Ok Re -> two_sites_hamil t_tdot t_perm h h' = Ok He ->
    hermitian_chain (hpre ++ [h; h'] ++ hpost) l e (sizes (pre ++ [a; a'] ++ post)) ->
    1 <= Nat.min (y * p) (p' * y') ->
    (Z.of_nat (Nat.min (y * p) (p' * y')) <= 2 ^ 63)%Z ->
    (forall s Et U M, merge t_tdot a a' = Ok s -> t_update eps s He Le Re = Ok (Et, U) -> cut_matrix 2 U M -> isometries M (dsvd M)) ->
    t_site_update eps dsvd wt thr mn mx fwd a a' He Le Re = Some (Ok (Et, b, b')) ->
    exists k', dsh b = [y; p; k'] /\ dsh b' = [k'; p'; y'] /\ sprod [y; p; p'; y'] (pair_amp b b') (pair_amp b b') = ro /\ (if fwd then left_isometry b else right_isometry b') /\ 1 <= k'.
  Proof.
    intros Sl Se HLn F O Sa Sa' HL HR HH HC K1 HK HS EB. destruct (@chain_parts N W eps dsvd wt H_thin H_val pre a a' post hpre h h' hpost x o x' o' y p k p' y' HLn F O Sa Sa') as (Fl & Fr & q & r & q' & Ol & Or & Sh & Sh').
    rewrite (@chain_sizes N pre post y p p' y' a a' k Sa Sa') in HC.
    pose proof (@env_fits N pre post hpre hpost h h' l e x o x' o' y p p' y' q r q' Sl Se Fl Fr Ol Or Sh Sh' Le He Re HL HR HH) as FT.
    pose proof (@heff_hermitian N pre post hpre hpost h h' l e x o x' o' y p p' y' q r q' Sl Se Fl Fr Ol Or Sh Sh' Le He Re HL HR HH HC) as HM.
    destruct (@merge_ok N a a' y p k p' y' Sa Sa') as (s & Es & Ss & Vs).
    destruct (@update_run N Le He Re y p p' y' FT eps s Ss HM) as (_ & _ & _ & _ & _ & _ & _ & _ & _ & _ & _ & Et' & U & EU & _ & _ & SU & _).
    destruct (@split_gen N W eps dsvd wt thr mn mx H_thin H_val Hmn y p p' y' HK U SU (fun M CM => HS s Et' U M Es EU CM) fwd K1) as (k' & w & sc & ES & Bk & Bm & Ns & _ & Q2 & Q3).
    rewrite (@site_halves N W eps dsvd wt thr mn mx fwd a a' He Le Re s Et' U Es EU), ES in EB. cbn [obind] in EB.
    destruct (reqb sc rz) eqn:Q; [apply reqb_spec in Q; destruct (Q2 Q) as [Q' _]; rewrite Q' in EB; discriminate|].
    destruct Q3 as (c & c' & EH & Sb & Sb' & NB & IB & _). { intros Q'. rewrite (proj2 (reqb_spec N _ _) Q') in Q. discriminate. }
    rewrite EH in EB. cbn [rbind fst snd] in EB. injection EB as _ <- <-. exists k'. repeat split; auto. lia.
  Qed.
End U.

Section R.
  Context {N : numeric} {W : weights}.
  Notation t := (dense N).
  Notation idk := (fun k : nat => k).
  Notation fit := (mps_fit (@dsh N) idk).
  Notation ofit := (mpo_fit (@dsh N) idk).
  Notation sizes := (map (@size N 1)).
  Variable eps : N.
  Variable dsvd : t -> t * t * t.
  Variable wt : N -> W.
  Variable thr : W.
  Variables mn mx : Z.
  Hypothesis H_thin : forall M, (exists m n, dsh M = [m; n]) -> thin M (dsvd M) /\ real_entries (snd (fst (dsvd M))).
  Hypothesis H_val : forall M, (exists m n, dsh M = [m; n]) -> descending (snd (fst (dsvd M))).
  Hypothesis Hmn : (1 <= mn <= mx)%Z.
  Variables (hs hs2 : list t) (l e : t) (x o x' o' : nat) (ps : list nat).
  Hypothesis Sl : dsh l = [x; o; x].
  Hypothesis Se : dsh e = [x'; o'; x'].
  Hypothesis H2 : compute_2sites_hamil t_tdot t_perm hs = Ok hs2.
  Hypothesis HC : hermitian_chain hs l e ps.
  Notation L := (length hs).
  Notation lstep := (compute_left_env t_tdot t_conj).
  Notation rstep := (compute_right_env t_tdot t_conj).
  Notation step1 := (update_at lstep rstep (t_site_update eps dsvd wt thr mn mx) hs hs2).

  Definition base (p : nat) (s : dst t t) : Prop :=
    d_oc s = Z.of_nat p /\ p + 2 <= L /\ fit (d_sites s) x x' /\ ofit hs (d_sites s) (d_sites s) o o' /\ sizes (d_sites s) = ps /\ length (d_env s) = L + 2 /\
    (forall i, i <= p -> exists E, nth_error (d_env s) i = Some E /\ left_envs t_tdot t_conj (firstn i hs) (firstn i (d_sites s)) l = Ok E) /\
    (forall i, p + 2 <= i <= L -> exists E, nth_error (d_env s) (i + 1) = Some E /\ right_envs t_tdot t_conj (skipn i hs) (skipn i (d_sites s)) e = Ok E).

  (** Everything at the pair of sites of a state. *)
  Lemma base_parts p s : base p s -> exists a a' h h' y q k q' y' Le Re He,
    d_sites s = firstn p (d_sites s) ++ [a; a'] ++ skipn (p + 2) (d_sites s) /\ hs = firstn p hs ++ [h; h'] ++ skipn (p + 2) hs /\
    length (firstn p (d_sites s)) = p /\ length (firstn p hs) = p /\ length (d_sites s) = L /\
    nth_error (d_sites s) p = Some a /\ nth_error (d_sites s) (p + 1) = Some a' /\ nth_error hs p = Some h /\ nth_error hs (p + 1) = Some h' /\
    dsh a = [y; q; k] /\ dsh a' = [k; q'; y'] /\ nth_error (d_env s) p = Some Le /\ nth_error (d_env s) (p + 3) = Some Re /\ nth_error hs2 p = Some He /\
    left_envs t_tdot t_conj (firstn p hs) (firstn p (d_sites s)) l = Ok Le /\ right_envs t_tdot t_conj (skipn (p + 2) hs) (skipn (p + 2) (d_sites s)) e = Ok Re /\ two_sites_hamil t_tdot t_perm h h' = Ok He.
  Proof.
    intros (Ep & Hp & F & O & Ps & Le & EL & ER). assert (LL : length (d_sites s) = L) by (symmetry; eapply ofit_len; eauto).
    destruct (@split_pair _ (d_sites s) p) as (a & a' & Na & Na' & Es); [lia|]. destruct (@split_pair _ hs p Hp) as (h & h' & Nh & Nh' & Eh).
    assert (L1 : length (firstn p (d_sites s)) = p) by (apply firstn_length_le; lia). assert (L2 : length (firstn p hs) = p) by (apply firstn_length_le; lia).
    rewrite Es in F. apply mps_fit_app in F as (z & F1 & (s1 & k1 & E1 & (s2 & k2 & E2 & F2))).
    destruct (EL p) as (Le' & N1 & W1); [lia|]. destruct (ER (p + 2)) as (Re & N2 & W2); [lia|]. replace (p + 2 + 1) with (p + 3) in N2 by lia.
    destruct (@two_at N hs2 hs _ h h' _ Eh H2) as (He & N3 & W3). rewrite L2 in N3.
    exists a, a', h, h', z, s1, k1, s2, k2, Le', Re, He. auto 20.
  Qed.

  (** The new state, once the numerical part is known. *)
  Lemma after_base p s step q a a' Le Re He Et b b' y r k r' y' :
    base p s -> dir_ok hs p step q -> nth_error (d_sites s) p = Some a -> nth_error (d_sites s) (p + 1) = Some a' -> nth_error (d_env s) p = Some Le -> nth_error (d_env s) (p + 3) = Some Re -> nth_error hs2 p = Some He ->
    t_site_update eps dsvd wt thr mn mx (step =? 1)%Z a a' He Le Re = Some (Ok (Et, b, b')) -> dsh a = [y; r; k] -> dsh a' = [k; r'; y'] ->
    (exists k', dsh b = [y; r; k'] /\ dsh b' = [k'; r'; y']) ->
    exists s', step1 s step = Some (Ok (s', Et)) /\ base q s' /\ d_sites s' = firstn p (d_sites s) ++ [b; b'] ++ skipn (p + 2) (d_sites s).
  Proof.
    intros I (Eq & Hstep & Hq) Na Na' NL NR NH EU Sa Sa' (k' & Sb & Sb').
    destruct (base_parts I) as (a1 & a1' & h & h' & y1 & q1 & k1 & q1' & y1' & Le1 & Re1 & He1 & Es & Eh & L1 & L2 & LL & Na1 & Na1' & Nh & Nh' & Sa1 & Sa1' & NL1 & NR1 & NH1 & WL & WR & WH).
    rewrite Na in Na1. rewrite Na' in Na1'. rewrite NL in NL1. rewrite NR in NR1. rewrite NH in NH1. injection Na1 as <-. injection Na1' as <-. injection NL1 as <-. injection NR1 as <-. injection NH1 as <-.
    rewrite Sa in Sa1. rewrite Sa' in Sa1'. injection Sa1 as <- <- <-. injection Sa1' as <- <-.
    destruct I as (Ep & Hp & F & O & Ps & LE & EL & ER).
    set (pre := firstn p (d_sites s)) in *. set (post := skipn (p + 2) (d_sites s)) in *. set (hpre := firstn p hs) in *. set (hpost := skipn (p + 2) hs) in *.
    assert (F' : fit (pre ++ [a; a'] ++ post) x x') by (rewrite <- Es; exact F). assert (O' : ofit (hpre ++ [h; h'] ++ hpost) (pre ++ [a; a'] ++ post) (pre ++ [a; a'] ++ post) o o') by (rewrite <- Es, <- Eh; exact O).
    destruct (@chain_parts N W eps dsvd wt H_thin H_val pre a a' post hpre h h' hpost x o x' o' y r k r' y') as (Fl & Fr & c & d & c' & Ol & Or & Sh & Sh'); try assumption; [congruence|].
    assert (FN : fit (pre ++ [b; b'] ++ post) x x') by (apply mps_fit_app; exists y; split; [exact Fl|]; exists r, k'; split; [exact Sb|]; exists r', y'; split; [exact Sb'|exact Fr]).
    pose proof (@chain_ofit N pre post hpre hpost h h' o o' y r r' y' c d c' Ol Or Sh Sh' b b' b b' k' k' Sb Sb' Sb Sb') as ON.
    assert (PN : sizes (pre ++ [b; b'] ++ post) = ps). { rewrite (@chain_sizes N pre post y r r' y' b b' k' Sb Sb'), <- Ps, Es. symmetry. apply (@chain_sizes N pre post y r r' y' a a' k Sa Sa'). }
    assert (S2 : upd (upd (d_sites s) p b) (p + 1) b' = pre ++ [b; b'] ++ post) by (pose proof (upd_pair pre a a' post b b') as U; rewrite L1, <- Es in U; exact U).
    set (ss := pre ++ [b; b'] ++ post) in *.
    assert (LS : length ss = L) by (unfold ss; rewrite <- LL, Es, !app_length; reflexivity).
    assert (FS : forall i, i <= p -> firstn i ss = firstn i (d_sites s)) by (intros i Hi; unfold ss; rewrite Es, !firstn_mid by lia; reflexivity).
    assert (KS : forall i, p + 2 <= i -> skipn i ss = skipn i (d_sites s)).
    { intros i Hi. unfold ss. rewrite Es. replace i with (length (pre ++ [b; b']) + (i - (p + 2))) at 1 by (rewrite app_length; cbn; lia). replace i with (length (pre ++ [a; a']) + (i - (p + 2))) at 2 by (rewrite app_length; cbn; lia).
      rewrite !app_assoc, !skipn_mid. reflexivity. }
    assert (Nb : nth_error ss p = Some b) by (unfold ss; rewrite nth_error_app2 by lia; replace (p - length pre) with 0 by lia; reflexivity).
    assert (Nb' : nth_error ss (p + 1) = Some b') by (unfold ss; rewrite nth_error_app2 by lia; replace (p + 1 - length pre) with 1 by lia; reflexivity).
    unfold update_at. rewrite Ep. rewrite (zget_nat _ _ Na). cbn [obind]. replace (Z.of_nat p + 1)%Z with (Z.of_nat (p + 1)) by lia. rewrite (zget_nat _ _ Na'). cbn [obind]. rewrite (zget_nat _ _ NH). cbn [obind].
    replace (Z.of_nat p - 1 + 1)%Z with (Z.of_nat p) by lia. rewrite (zget_nat _ _ NL). cbn [obind]. replace (Z.of_nat p + 2 + 1)%Z with (Z.of_nat (p + 3)) by lia. rewrite (zget_nat _ _ NR). cbn [obind]. rewrite EU. cbn [obind].
    rewrite zset_nat by lia. cbn [rbind]. rewrite zset_nat by (rewrite upd_length; lia). cbn [rbind]. rewrite S2.
    destruct (step =? 1)%Z eqn:Q.
    - apply Z.eqb_eq in Q. subst step. assert (q = p + 1) by lia. subst q. rewrite (zget_nat _ _ Nh). cbn [rbind].
      destruct (@d_left_envs N (hpre ++ [h]) (pre ++ [b]) l x o k' d Sl) as (E' & WE & _).
      { apply mps_fit_app. exists y. split; [exact Fl|]. exists r, k'. split; [exact Sb|reflexivity]. }
      { apply ofit_app with c; [exact Ol|]. exists d, r, r. rewrite Sb. repeat split; assumption. }
      rewrite left_envs_snoc in WE by lia. rewrite WL in WE. cbn [rbind] in WE. rewrite WE. cbn [rbind]. rewrite zset_nat by lia. cbn [rbind].
      eexists. split; [reflexivity|]. cbn [d_sites d_env d_oc]. split; [|reflexivity].
      split; [cbn; lia|]. split; [exact Hq|]. split; [exact FN|]. split; [rewrite Eh; exact ON|]. split; [exact PN|]. split; [cbn [d_env]; rewrite upd_length; lia|]. cbn [d_env d_sites].
      split.
      + intros i Hi. rewrite nth_error_upd by lia. destruct (Nat.eqb_spec i (p + 1)) as [-> | D].
        * exists E'. split; [reflexivity|]. replace (p + 1) with (S p) by lia. rewrite (firstn_S_nth _ _ Nh), (firstn_S_nth _ _ Nb), FS by lia. rewrite left_envs_snoc by (fold pre; fold hpre; lia). fold pre. fold hpre. rewrite WL. exact WE.
        * rewrite FS by lia. apply EL. lia.
      + intros i Hi. rewrite nth_error_upd by lia. destruct (Nat.eqb_spec (i + 1) (p + 1)); [lia|]. rewrite KS by lia. apply ER. lia.
    - apply Z.eqb_neq in Q. rewrite (zget_nat _ _ Nh'). cbn [rbind].
      destruct (@d_right_envs N (h' :: hpost) (b' :: post) e k' d x' o' Se) as (E' & WE & _).
      { exists r', y'. split; [exact Sb'|exact Fr]. }
      { exists c', r', r'. rewrite Sb'. repeat split; assumption. }
      cbn [right_envs] in WE. rewrite WR in WE. cbn [rbind] in WE. rewrite WE. cbn [rbind]. replace (Z.of_nat (p + 1) + 1)%Z with (Z.of_nat (p + 2)) by lia. rewrite zset_nat by lia. cbn [rbind].
      eexists. split; [reflexivity|]. cbn [d_sites d_env d_oc]. split; [|reflexivity]. assert (Hqp : q <= p <= q + 1) by lia.
      split; [cbn; lia|]. split; [exact Hq|]. split; [exact FN|]. split; [rewrite Eh; exact ON|]. split; [exact PN|]. split; [cbn [d_env]; rewrite upd_length; lia|]. cbn [d_env d_sites].
      split.
      + intros i Hi. rewrite nth_error_upd by lia. destruct (Nat.eqb_spec i (p + 2)); [lia|]. rewrite FS by lia. apply EL. lia.
      + intros i Hi. rewrite nth_error_upd by lia. destruct (Nat.eqb_spec (i + 1) (p + 2)) as [D|D].
        * assert (i = p + 1) by lia. subst i. exists E'. split; [reflexivity|]. rewrite (skipn_nth _ _ Nh'), (skipn_nth _ _ Nb'). replace (S (p + 1)) with (p + 2) by lia. rewrite KS by lia. fold post. fold hpost. cbn [right_envs]. rewrite WR. exact WE.
        * rewrite KS by lia. apply ER. lia.
  Qed.

  (** No dimension is zero; isometries between [lo] and [hi] only. *)
  Definition solid (sites : list t) : Prop := forall A k, In A sites -> In k (dsh A) -> 1 <= k.
  Definition window (lo hi p : nat) (sites : list t) : Prop :=
    (forall j A, lo <= j < p -> nth_error sites j = Some A -> left_isometry A) /\ (forall j A, p + 2 <= j < hi -> nth_error sites j = Some A -> right_isometry A).
  Notation inv := (inv hs l e x o x' o' ps).
  Notation good := (good eps dsvd hs l e).

  Lemma window_inv lo hi p s : base p s -> window lo hi p (d_sites s) -> lo = 0 -> L <= hi -> inv p s.
  Proof.
    clear H_thin H_val Hmn Sl Se H2 HC eps wt thr dsvd mn mx W. intros I (WL & WR) -> Hh. pose proof I as (Ep & Hp & F & O & Ps & LE & EL & ER). assert (LL : length (d_sites s) = L) by (symmetry; eapply ofit_len; eauto).
    split; [exact Ep|]. split; [exact Hp|]. split; [exact F|]. split; [exact O|]. split; [exact Ps|]. split; [exact LE|]. split; [exact EL|]. split; [exact ER|].
    split; apply Forall_forall; intros A HA; apply In_nth_error in HA as (j & NA).
    - assert (j < length (firstn p (d_sites s))) by (apply nth_error_Some; congruence). rewrite firstn_length in H. apply WL with j; [lia|]. rewrite <- NA. symmetry. rewrite <- (firstn_skipn p (d_sites s)) at 2. rewrite nth_error_app1; [reflexivity|rewrite firstn_length; lia].
    - assert (j < length (skipn (p + 2) (d_sites s))) by (apply nth_error_Some; congruence). rewrite skipn_length in H. apply WR with (p + 2 + j); [lia|]. rewrite <- NA. rewrite <- (firstn_skipn (p + 2) (d_sites s)) at 1. rewrite nth_error_app2; rewrite firstn_length_le by lia; [f_equal; lia|lia].
  Qed.

  Lemma step_free p s step q s' E : base p s -> dir_ok hs p step q -> good p (d_sites s) -> solid (d_sites s) -> step1 s step = Some (Ok (s', E)) ->
    base q s' /\ solid (d_sites s') /\ (forall lo hi, lo <= p -> p + 2 <= hi -> window lo hi p (d_sites s) -> window (Nat.min lo q) (Nat.max hi (q + 2)) q (d_sites s')) /\
    (inv p s -> chain_norm (d_sites s') x x' = ro /\ gauge (centre_after p step) (d_sites s')).
  Proof.
    intros I D (GS & GK) SO EU.
    destruct (base_parts I) as (a & a' & h & h' & y & r & k & r' & y' & Le & Re & He & Es & Eh & L1 & L2 & LL & Na & Na' & Nh & Nh' & Sa & Sa' & NL & NR & NH & WL & WR & WH).
    assert (EX : exists b b', t_site_update eps dsvd wt thr mn mx (step =? 1)%Z a a' He Le Re = Some (Ok (E, b, b'))).
    { destruct I as (Ep & _). revert EU. unfold update_at. rewrite Ep, (zget_nat _ _ Na). cbn [obind]. replace (Z.of_nat p + 1)%Z with (Z.of_nat (p + 1)) by lia. rewrite (zget_nat _ _ Na'). cbn [obind]. rewrite (zget_nat _ _ NH). cbn [obind].
      replace (Z.of_nat p - 1 + 1)%Z with (Z.of_nat p) by lia. rewrite (zget_nat _ _ NL). cbn [obind]. replace (Z.of_nat p + 2 + 1)%Z with (Z.of_nat (p + 3)) by lia. rewrite (zget_nat _ _ NR). cbn [obind].
      destruct (t_site_update _ _ _ _ _ _ _ _ _ _ _ _) as [[[[E1 b] b']| |]|]; cbn [obind]; try discriminate. intros EU. injection EU as EU. exists b, b'. revert EU.
      destruct (zset (d_sites s) _ b); cbn [rbind]; try discriminate. destruct (zset _ _ b'); cbn [rbind]; try discriminate. match goal with |- context [rbind ?x _] => destruct x end; cbn [rbind]; try discriminate. intros [= _ ->]. reflexivity. }
    destruct EX as (b & b' & EB). pose proof I as (Ep & Hp & F & O & Ps & LE & EL & ER).
    assert (HC' : hermitian_chain (firstn p hs ++ [h; h'] ++ skipn (p + 2) hs) l e (sizes (firstn p (d_sites s) ++ [a; a'] ++ skipn (p + 2) (d_sites s)))) by (rewrite <- Es, <- Eh, Ps; exact HC).
    assert (Pa : 1 <= y /\ 1 <= r) by (split; apply (SO a); try (eapply nth_error_In; eassumption); rewrite Sa; cbn; auto).
    assert (Pb : 1 <= r' /\ 1 <= y') by (split; apply (SO a'); try (eapply nth_error_In; eassumption); rewrite Sa'; cbn; auto).
    destruct (@site_update_free N W eps dsvd wt thr mn mx H_thin H_val Hmn (step =? 1)%Z (firstn p (d_sites s)) a a' (skipn (p + 2) (d_sites s)) (firstn p hs) h h' (skipn (p + 2) hs) l e x o x' o' y r k r' y' Le He Re E b b')
      as (k' & Sb & Sb' & NB & IB & Hk); try assumption; try (rewrite <- Es; assumption); [congruence|rewrite <- Es, <- Eh; exact O| | | |].
    - apply Nat.min_glb; [destruct y, r; lia|destruct r', y'; lia].
    - apply GK. exists (firstn p (d_sites s)), a, a', (skipn (p + 2) (d_sites s)). split; [exact Es|]. split; [exact L1|]. unfold size. rewrite Sa, Sa'. reflexivity.
    - intros s0 Et0 U M0 EM EU0 CM. eapply GS; [|exact WL|exact WR|exact WH|exact EM|exact EU0|exact CM]. repeat split; assumption.
    - destruct (@after_base p s step q a a' Le Re He E b b' y r k r' y' I D Na Na' NL NR NH EB Sa Sa') as (s1 & E1 & I1 & S1); [eauto|]. rewrite E1 in EU. injection EU as <-.
      split; [exact I1|]. split; [|split].
      + intros A n HA Hn. rewrite S1 in HA. apply in_app_or in HA as [HA|HA]; [|apply in_app_or in HA as [[<-|[<-|[]]]|HA]].
        * apply (SO A); [|exact Hn]. rewrite Es. apply in_or_app. left. exact HA.
        * rewrite Sb in Hn. destruct Hn as [<-|[<-|[<-|[]]]]; tauto.
        * rewrite Sb' in Hn. destruct Hn as [<-|[<-|[<-|[]]]]; tauto.
        * apply (SO A); [|exact Hn]. rewrite Es. apply in_or_app. right. apply in_or_app. right. exact HA.
      + intros lo hi Hlo Hhi (W1 & W2). destruct D as (Eq & Hs & Hq).
        assert (Nb : nth_error (d_sites s1) p = Some b) by (rewrite S1, nth_error_app2 by lia; replace (p - length (firstn p (d_sites s))) with 0 by lia; reflexivity).
        assert (Nb' : nth_error (d_sites s1) (p + 1) = Some b') by (rewrite S1, nth_error_app2 by lia; replace (p + 1 - length (firstn p (d_sites s))) with 1 by lia; reflexivity).
        assert (Nj : forall j, j <> p -> j <> p + 1 -> nth_error (d_sites s1) j = nth_error (d_sites s) j).
        { intros j J1 J2. rewrite S1. rewrite Es at 3. destruct (Nat.lt_ge_cases j p) as [Q|Q]; [rewrite !nth_error_app1 by lia; reflexivity|].
          rewrite !nth_error_app2 by lia. assert (Q2 : 2 <= j - p) by lia. rewrite !nth_error_app2 by (cbn; lia). f_equal. }
        split; intros j A Hj NA.
        * destruct (Nat.eq_dec j p) as [-> |J1].
          { rewrite Nb in NA. injection NA as <-. destruct (Z.eqb_spec step 1) as [_|Q]; [exact IB|lia]. }
          destruct (Nat.eq_dec j (p + 1)) as [-> |J2]; [lia|]. rewrite Nj in NA by assumption. apply W1 with j; [lia|exact NA].
        * destruct (Nat.eq_dec j (p + 1)) as [-> |J2].
          { rewrite Nb' in NA. injection NA as <-. destruct (Z.eqb_spec step 1) as [Q|_]; [lia|exact IB]. }
          destruct (Nat.eq_dec j p) as [-> |J1]; [lia|]. rewrite Nj in NA by assumption. apply W2 with j; [lia|exact NA].
      + intros IV. split.
        * pose proof IV as (_ & _ & _ & _ & _ & _ & _ & _ & IL & IR). assert (F' : fit (firstn p (d_sites s) ++ [a; a'] ++ skipn (p + 2) (d_sites s)) x x') by (rewrite <- Es; exact F).
          apply mps_fit_app in F' as (z & Fl & (r1 & k1 & T1 & (r2 & k2 & T2 & Fr))). rewrite Sa in T1. injection T1 as <- <- <-. rewrite Sa' in T2. injection T2 as <- <-.
          rewrite S1, (@norm_centre N (firstn p (d_sites s)) b b' (skipn (p + 2) (d_sites s)) x y r k' r' y' x' Fl Sb Sb' Fr IL IR). exact NB.
        * eapply gauge_after; eassumption.
  Qed.
End R.

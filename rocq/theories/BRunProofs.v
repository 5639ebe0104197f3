(** One update inside a run of DMRG on block tensors. *)
From Verif Require Import Base Quantity QuantityProofs Ring Index SpecIndex Dense IndexProofs BTensor SpecBTensor BTensorProofs BTensorArith Bcast Tensordot SpecTensordot Chain SpecChain ChainProofs ChainThms ChainInst ChainEnd
  SpecMove SpecSvd SvdDense BSvd MoveOc MoveProofs MoveInst Truncate SpecTruncate TruncateProofs BTrunc SpecBTrunc BTruncProofs Num Lanczos SpecLanczos BLanczos SpecBLanczos
  ChainEnergy SiteUpdate SpecSiteUpdate SiteUpdateThms BSiteUpdate SpecBSiteUpdate BSiteUpdateThms BSiteChain
  Dmrg DmrgProofs DmrgRun DmrgRunProofs DmrgRunThms BDmrgRun SpecBDmrgRun BRunStep BRunSite.
Set Implicit Arguments.

Section Any.
  Variable T : Type.
  Variable tdot : T -> T -> list nat -> list nat -> result T.
  Variable tconj : T -> T.
  Notation lstep := (compute_left_env tdot tconj).
  Lemma lsnoc h1 : forall a1 h a (e0 : T), length a1 = length h1 -> left_envs tdot tconj (h1 ++ [h]) (a1 ++ [a]) e0 = do y <- left_envs tdot tconj h1 a1 e0 ; lstep h a y.
  Proof.
    induction h1 as [|o1 h1 IH]; intros [|s1 a1] h a e0 E; try discriminate; cbn [app left_envs].
    - cbn [rbind]. destruct (lstep h a e0); reflexivity.
    - destruct (lstep o1 s1 e0) as [e1| |]; cbn [rbind]; [|reflexivity..]. apply IH. cbn in E. lia.
  Qed.
  Variable tperm : list nat -> T -> result T.
  Lemma two_in l2 : forall hs0 hpre h h' hpost, hs0 = hpre ++ [h; h'] ++ hpost -> compute_2sites_hamil tdot tperm hs0 = Ok l2 -> exists He, nth_error l2 (length hpre) = Some He /\ two_sites_hamil tdot tperm h h' = Ok He.
  Proof.
    induction l2 as [|y l2 IH]; intros hs0 hpre h h' hpost -> E.
    - exfalso. destruct hpre as [|h0 hpre]; cbn in E; [destruct (two_sites_hamil _ _ h h'); cbn in E; try discriminate; destruct (two_sites_loop _ _ h' hpost); discriminate|].
      destruct hpre as [|h1 hpre]; cbn in E; (destruct (two_sites_hamil _ _ _ _); cbn in E; try discriminate); (destruct (two_sites_hamil _ _ _ _) || destruct (two_sites_loop _ _ _ _)); cbn in E; try discriminate;
      destruct (two_sites_loop _ _ _ _); discriminate.
    - destruct hpre as [|h0 hpre]; cbn [app length compute_2sites_hamil two_sites_loop] in E |- *.
      + destruct (two_sites_hamil _ _ h h') as [He| |]; cbn in E; try discriminate. destruct (two_sites_loop _ _ h' hpost); cbn in E; try discriminate. injection E as <- <-. exists He. auto.
      + destruct (hpre ++ [h; h'] ++ hpost) as [|h1 r] eqn:Q; [destruct hpre; discriminate|]. change (hpre ++ h :: h' :: hpost) with (hpre ++ [h; h'] ++ hpost) in E. rewrite Q in E. cbn [two_sites_loop] in E.
        destruct (two_sites_hamil _ _ h0 h1) as [y'| |]; cbn in E; try discriminate. destruct (two_sites_loop tdot tperm h1 r) as [l'| |] eqn:Q2; cbn in E; try discriminate. injection E as _ ->.
        apply (IH (h1 :: r) hpre h h' hpost (eq_sym Q) Q2).
  Qed.
End Any.
Section Up.
  Variable T : Type.
  Variable upd2 : bool -> T -> T -> T -> T -> T -> option (result (T * T * T)).
  Variables lenv renv : T -> T -> T -> result T.
  Variables hs hs2 : list T.
  (** An update that returned, in parts. *)
  Lemma update_inv s step s' E p a a' h l r : d_oc s = Z.of_nat p -> nth_error (d_sites s) p = Some a -> nth_error (d_sites s) (p + 1) = Some a' -> nth_error hs2 p = Some h -> nth_error (d_env s) p = Some l -> nth_error (d_env s) (p + 3) = Some r ->
    update_at lenv renv upd2 hs hs2 s step = Some (Ok (s', E)) -> exists b b', upd2 (step =? 1)%Z a a' h l r = Some (Ok (E, b, b')).
  Proof.
    intros Ep Na Na' NH NL NR. unfold update_at. rewrite Ep, (zget_nat _ _ Na). cbn [obind]. replace (Z.of_nat p + 1)%Z with (Z.of_nat (p + 1)) by lia. rewrite (zget_nat _ _ Na'). cbn [obind]. rewrite (zget_nat _ _ NH). cbn [obind].
    replace (Z.of_nat p - 1 + 1)%Z with (Z.of_nat p) by lia. rewrite (zget_nat _ _ NL). cbn [obind]. replace (Z.of_nat p + 2 + 1)%Z with (Z.of_nat (p + 3)) by lia. rewrite (zget_nat _ _ NR). cbn [obind].
    destruct (upd2 _ a a' h l r) as [[[[E1 b] b']| |]|]; cbn [obind]; try discriminate. intros EU. injection EU as EU. exists b, b'. revert EU.
    destruct (zset (d_sites s) _ b); cbn [rbind]; try discriminate. destruct (zset _ _ b'); cbn [rbind]; try discriminate. match goal with |- context [rbind ?x _] => destruct x end; cbn [rbind]; try discriminate. intros [= _ ->]. reflexivity.
  Qed.
End Up.

Section R.
  Context {G : abgroup} {N : numeric} {W : weights}.
  Variable imax : nat.
  Notation bt := (btensor G N).
  Notation d := (dense N).
  Notation tl := (@blegs G N).
  Notation dual := (@bdual G).
  Notation den := (@stored G N imax).
  Notation fit := (mps_fit tl dual).
  Notation ofit := (mpo_fit tl dual).
  Notation leg := (list nat * list G)%type.
  Notation tdot := (@tensordot G N imax).
  Notation lenvs := (left_envs tdot (@conj G N)).
  Notation renvs := (right_envs tdot (@conj G N)).
  Notation rules := (fun l : list bt => qprod G (map (@b_rule G N) l)).
  Notation phys := (map (fun A : bt => nth 1 (tl A) (bk0 G))).
  Variable eps : N.
  Variable gtb : N -> N -> bool.
  Variable lower : N -> N.
  Variable wt : N -> W.
  Variable dsvd : d -> d * d * d.
  Variable thr : W.
  Variables mn mx : Z.
  Variables (hs hs2 : list bt) (Dhs : list d) (l e : bt) (Dl De : d) (x o x' o' : leg) (ps : list leg) (R : G).
  Hypothesis Hhs : Forall2 den hs Dhs.
  Hypothesis (Hl : den l Dl) (He : den e De).
  Hypothesis Sl : tl l = [x; o; dual x].
  Hypothesis Se : tl e = [dual x'; dual o'; x'].
  Hypothesis H2 : compute_2sites_hamil tdot b_perm hs = Ok hs2.
  Hypothesis HQ : qop G (b_rule l) (qop G (rules hs) (b_rule e)) = qe G.
  Notation L := (length hs).
  Notation lstep := (compute_left_env tdot (@conj G N)).
  Notation rstep := (compute_right_env tdot (@conj G N)).
  Notation site_up := (b_site_update imax eps gtb lower wt dsvd thr mn mx).
  Notation step1 := (update_at lstep rstep site_up hs hs2).

  Definition binv (p : nat) (s : dst bt bt) : Prop :=
    d_oc s = Z.of_nat p /\ p + 2 <= L /\ fit (d_sites s) x x' /\ ofit hs (d_sites s) (d_sites s) o o' /\ Forall (well imax) (d_sites s) /\ phys (d_sites s) = ps /\ rules (d_sites s) = R /\ length (d_env s) = L + 2 /\
    (forall i, i <= p -> exists E, nth_error (d_env s) i = Some E /\ lenvs (firstn i hs) (firstn i (d_sites s)) l = Ok E) /\
    (forall i, p + 2 <= i <= L -> exists E, nth_error (d_env s) (i + 1) = Some E /\ renvs (skipn i hs) (skipn i (d_sites s)) e = Ok E).

  Lemma bofit_app h1 h2 : forall (a1 a2 b1 b2 : list bt) u v w, ofit h1 a1 b1 u v -> ofit h2 a2 b2 v w -> ofit (h1 ++ h2) (a1 ++ a2) (b1 ++ b2) u w.
  Proof.
    induction h1 as [|A h1 IH]; intros [|s a1] a2 [|s' b1] b2 u v w H1 H3; cbn [mpo_fit app] in *; try contradiction; [subst; exact H3|].
    destruct H1 as (k & m & m' & E & E1 & E2 & H1). exists k, m, m'. split; [exact E|]. split; [exact E1|]. split; [exact E2|]. apply IH with v; assumption.
  Qed.
  Lemma bofit_len h1 : forall (a b : list bt) u v, ofit h1 a b u v -> length h1 = length a.
  Proof. induction h1 as [|A h1 IH]; intros [|s a] [|s' b] u v H; cbn [mpo_fit] in H; try contradiction; [reflexivity|]. destruct H as (? & ? & ? & _ & _ & _ & H). cbn. f_equal. eapply IH; eauto. Qed.
  Lemma F2_firstn A B (P : A -> B -> Prop) u v n : Forall2 P u v -> Forall2 P (firstn n u) (firstn n v).
  Proof. intros H. revert n. induction H; intros [|n]; cbn; constructor; auto. Qed.
  Lemma F2_skipn A B (P : A -> B -> Prop) u v n : Forall2 P u v -> Forall2 P (skipn n u) (skipn n v).
  Proof. intros H. revert n. induction H; intros [|n]; cbn; auto. Qed.
  Lemma F2_nth A B (P : A -> B -> Prop) u v : Forall2 P u v -> forall n a, nth_error u n = Some a -> exists b, nth_error v n = Some b /\ P a b.
  Proof. induction 1; intros [|n] a; cbn; try discriminate; [intros [= <-]; eauto|apply IHForall2]. Qed.

  (** Everything at the pair of sites of a state. *)
  Lemma binv_parts p s : binv p s -> exists a a' h h' y q k q' y' c m c' Le Re Hh, let pre := firstn p (d_sites s) in let post := skipn (p + 2) (d_sites s) in let hpre := firstn p hs in let hpost := skipn (p + 2) hs in
    (d_sites s = pre ++ [a; a'] ++ post /\ hs = hpre ++ [h; h'] ++ hpost) /\
    (length pre = p /\ length hpre = p /\ length (d_sites s) = L) /\
    (nth_error (d_sites s) p = Some a /\ nth_error (d_sites s) (p + 1) = Some a' /\ nth_error hs p = Some h /\ nth_error hs (p + 1) = Some h') /\
    (tl a = [dual y; q; k] /\ tl a' = [dual k; q'; y'] /\ tl h = [dual c; q; m; dual q] /\ tl h' = [dual m; q'; c'; dual q']) /\
    (fit pre x y /\ fit post y' x' /\ ofit hpre pre pre o c /\ ofit hpost post post c' o') /\
    (nth_error (d_env s) p = Some Le /\ nth_error (d_env s) (p + 3) = Some Re /\ nth_error hs2 p = Some Hh) /\
    (lenvs hpre pre l = Ok Le /\ renvs hpost post e = Ok Re /\ two_sites_hamil tdot b_perm h h' = Ok Hh) /\
    (tl Le = [y; c; dual y] /\ tl Re = [dual y'; dual c'; y'] /\ tl Hh = [dual c; q; q'; c'; dual q; dual q']) /\
    conserving Le Hh Re /\ exists Da Da' DL DR DH, den a Da /\ den a' Da' /\ den Le DL /\ den Re DR /\ den Hh DH.
  Proof.
    intros (Ep & Hp & F & O & WS & Ps & Rs & Le & EL & ER). assert (LL : length (d_sites s) = L) by (symmetry; eapply bofit_len; eauto).
    destruct (@split_pair _ (d_sites s) p) as (a & a' & Na & Na' & Es); [lia|]. destruct (@split_pair _ hs p Hp) as (h & h' & Nh & Nh' & Eh).
    set (pre := firstn p (d_sites s)) in *. set (post := skipn (p + 2) (d_sites s)) in *. set (hpre := firstn p hs) in *. set (hpost := skipn (p + 2) hs) in *.
    assert (L1 : length pre = p) by (apply firstn_length_le; lia). assert (L2 : length hpre = p) by (apply firstn_length_le; lia).
    assert (F' : fit (pre ++ [a; a'] ++ post) x x') by (rewrite <- Es; exact F). apply mps_fit_app in F' as (z & F1 & (s1 & k1 & E1 & (s2 & k2 & E2 & F2))).
    assert (O' : ofit (hpre ++ [h; h'] ++ hpost) (pre ++ [a; a'] ++ post) (pre ++ [a; a'] ++ post) o o') by (rewrite <- Es, <- Eh; exact O).
    apply ofit_parts in O' as (c & O1 & O'); try lia. destruct O' as (m & r & r' & Th & Em & Em' & (c' & r2 & r2' & Th' & Em2 & Em2' & O2)).
    rewrite E1 in Em, Em'. rewrite E2 in Em2, Em2'. cbn in Em, Em', Em2, Em2'. injection Em as <-. injection Em' as <-. injection Em2 as <-. injection Em2' as <-.
    destruct (EL p) as (Le' & N1 & W1); [lia|]. destruct (ER (p + 2)) as (Re & N2 & W2); [lia|]. replace (p + 2 + 1) with (p + 3) in N2 by lia. fold pre hpre in W1. fold post hpost in W2.
    destruct (@two_in _ tdot b_perm hs2 hs hpre h h' hpost Eh H2) as (Hh & N3 & W3). rewrite L2 in N3.
    destruct (wells_den WS) as (Ds & HDs). destruct (F2_nth HDs _ Na) as (Da & _ & HDa). destruct (F2_nth HDs _ Na') as (Da' & _ & HDa'). destruct (F2_nth Hhs _ Nh) as (Dh & _ & HDh). destruct (F2_nth Hhs _ Nh') as (Dh' & _ & HDh').
    destruct (@b_left_envs G N imax hpre pre l x o z c (firstn p Ds) (firstn p Dhs) Dl) as (Le2 & EL' & TL & HL); try assumption; [apply F2_firstn; assumption..|]. rewrite W1 in EL'. injection EL' as <-.
    destruct (@b_right_envs G N imax hpost post e k2 c' x' o' (skipn (p + 2) Ds) (skipn (p + 2) Dhs) De) as (Re2 & ER' & TR & HR); try assumption; [apply F2_skipn; assumption..|]. rewrite W2 in ER'. injection ER' as <-.
    destruct (@b_two_sites G N imax h [h'] c c' Dh [Dh'] HDh) as (rr & Err & _ & Prr); [auto|exists s1, m, (dual s1); split; [exact Th|]; exists s2, c', (dual s2); split; [exact Th'|reflexivity]|].
    cbn in Err. rewrite W3 in Err. cbn in Err. injection Err as <-. destruct (Prr 0 Hh h h' Dh Dh' eq_refl eq_refl eq_refl eq_refl eq_refl) as (HH & TH). rewrite Th, Th' in TH. cbn in TH. clear Prr.
    exists a, a', h, h', z, s1, k1, s2, k2, c, m, c', Le', Re, Hh. cbv zeta. fold pre post hpre hpost.
    split; [auto|]. split; [auto|]. split; [auto|]. split; [auto|]. split; [auto|]. split; [auto|]. split; [auto|]. split; [auto|]. split.
    - eapply env_conserving; [exact W1|exact W2|exact W3|]. rewrite <- Eh. exact HQ.
    - exists Da, Da'. eauto 10.
  Qed.

  Definition bdir_ok (p : nat) (step : Z) (q : nat) : Prop := (Z.of_nat q = Z.of_nat p + step)%Z /\ (step = 1 \/ step = -1 \/ step = 0)%Z /\ q + 2 <= L.
  (** The new state, once the numerical part is known. *)
  Lemma bafter p s step q a a' Le Re Hh Et b b' :
    binv p s -> bdir_ok p step q -> nth_error (d_sites s) p = Some a -> nth_error (d_sites s) (p + 1) = Some a' -> nth_error (d_env s) p = Some Le -> nth_error (d_env s) (p + 3) = Some Re -> nth_error hs2 p = Some Hh ->
    site_up (step =? 1)%Z a a' Hh Le Re = Some (Ok (Et, b, b')) -> well imax b -> well imax b' ->
    (forall y r k r' y', tl a = [dual y; r; k] -> tl a' = [dual k; r'; y'] -> exists k', tl b = [dual y; r; k'] /\ tl b' = [dual k'; r'; y']) -> qop G (b_rule b) (b_rule b') = qop G (b_rule a) (b_rule a') ->
    exists s', step1 s step = Some (Ok (s', Et)) /\ binv q s' /\ d_sites s' = firstn p (d_sites s) ++ [b; b'] ++ skipn (p + 2) (d_sites s).
  Proof.
    intros I (Eq & Hstep & Hq) Na Na' NL NR NH EU Wb Wb' HK HR.
    destruct (binv_parts I) as (a1 & a1' & h & h' & y & r & k & r' & y' & c & m & c' & Le1 & Re1 & He1 & (Es & Eh) & (L1 & L2 & LL) & (Na1 & Na1' & Nh & Nh') & (Ta & Ta' & Th & Th') & (Fl & Fr & Ol & Or) & (NL1 & NR1 & NH1) & (WL & WR & WH) & _ & _ & Da & Da' & DL & DR & DH & HDa & HDa' & HDL & HDR & HDH).
    rewrite Na in Na1. rewrite Na' in Na1'. rewrite NL in NL1. rewrite NR in NR1. rewrite NH in NH1. injection Na1 as <-. injection Na1' as <-. injection NL1 as <-. injection NR1 as <-. injection NH1 as <-.
    destruct (HK y r k r' y' Ta Ta') as (k' & Tb & Tb'). destruct I as (Ep & Hp & F & O & WS & Ps & Rs & LE & EL & ER).
    set (pre := firstn p (d_sites s)) in *. set (post := skipn (p + 2) (d_sites s)) in *. set (hpre := firstn p hs) in *. set (hpost := skipn (p + 2) hs) in *.
    assert (FN : fit (pre ++ [b; b'] ++ post) x x') by (apply mps_fit_app; exists y; split; [exact Fl|]; exists r, k'; split; [exact Tb|]; exists r', y'; split; [exact Tb'|exact Fr]).
    assert (ON : ofit (hpre ++ [h; h'] ++ hpost) (pre ++ [b; b'] ++ post) (pre ++ [b; b'] ++ post) o o').
    { apply bofit_app with c; [exact Ol|]. exists m, r, r. rewrite Tb. split; [exact Th|]. split; [reflexivity|]. split; [reflexivity|]. exists c', r', r'. rewrite Tb'. split; [exact Th'|]. split; [reflexivity|]. split; [reflexivity|]. exact Or. }
    assert (WN : Forall (well imax) (pre ++ [b; b'] ++ post)).
    { rewrite Es in WS. apply Forall_app in WS as (W1 & W2). apply Forall_app in W2 as (_ & W2). apply Forall_app. split; [exact W1|]. apply Forall_app. split; [auto|exact W2]. }
    assert (PN : phys (pre ++ [b; b'] ++ post) = ps) by (rewrite <- Ps, Es, !map_app; cbn [map]; rewrite Ta, Ta', Tb, Tb'; reflexivity).
    assert (RN : rules (pre ++ [b; b'] ++ post) = R).
    { rewrite <- Rs, Es, !map_app. cbn [map]. rewrite !qprod_app. f_equal. f_equal. cbn. rewrite !qop_e_r. exact HR. }
    assert (S2 : upd (upd (d_sites s) p b) (p + 1) b' = pre ++ [b; b'] ++ post) by (pose proof (upd_pair pre a a' post b b') as U; rewrite L1, <- Es in U; exact U).
    set (ss := pre ++ [b; b'] ++ post) in *.
    assert (LS : length ss = L) by (unfold ss; rewrite <- LL, Es, !app_length; reflexivity).
    assert (FS : forall i, i <= p -> firstn i ss = firstn i (d_sites s)) by (intros i Hi; unfold ss; rewrite Es, !firstn_mid by lia; reflexivity).
    assert (KS : forall i, p + 2 <= i -> skipn i ss = skipn i (d_sites s)).
    { intros i Hi. unfold ss. rewrite Es. replace i with (length (pre ++ [b; b']) + (i - (p + 2))) at 1 by (rewrite app_length; cbn; lia). replace i with (length (pre ++ [a; a']) + (i - (p + 2))) at 2 by (rewrite app_length; cbn; lia).
      rewrite !app_assoc, !skipn_mid. reflexivity. }
    assert (Nb : nth_error ss p = Some b) by (unfold ss; rewrite nth_error_app2 by lia; replace (p - length pre) with 0 by lia; reflexivity).
    assert (Nb' : nth_error ss (p + 1) = Some b') by (unfold ss; rewrite nth_error_app2 by lia; replace (p + 1 - length pre) with 1 by lia; reflexivity).
    destruct (wells_den WN) as (Dn & HDn). destruct (F2_nth Hhs _ Nh) as (Dh & _ & HDh). destruct (F2_nth Hhs _ Nh') as (Dh' & _ & HDh'). destruct (well_den Wb) as (Db & HDb). destruct (well_den Wb') as (Db' & HDb').
    assert (HPre : exists X, Forall2 den pre X) by (apply wells_den; unfold ss in WN; apply Forall_app in WN as (Q & _); exact Q). assert (HPost : exists X, Forall2 den post X) by (apply wells_den; unfold ss in WN; apply Forall_app in WN as (_ & Q); apply Forall_app in Q as (_ & Q); exact Q).
    destruct HPre as (Dpre & HDpre). destruct HPost as (Dpost & HDpost).
    unfold update_at. rewrite Ep. rewrite (zget_nat _ _ Na). cbn [obind]. replace (Z.of_nat p + 1)%Z with (Z.of_nat (p + 1)) by lia. rewrite (zget_nat _ _ Na'). cbn [obind]. rewrite (zget_nat _ _ NH). cbn [obind].
    replace (Z.of_nat p - 1 + 1)%Z with (Z.of_nat p) by lia. rewrite (zget_nat _ _ NL). cbn [obind]. replace (Z.of_nat p + 2 + 1)%Z with (Z.of_nat (p + 3)) by lia. rewrite (zget_nat _ _ NR). cbn [obind]. rewrite EU. cbn [obind].
    rewrite zset_nat by lia. cbn [rbind]. rewrite zset_nat by (rewrite upd_length; lia). cbn [rbind]. rewrite S2.
    destruct (step =? 1)%Z eqn:Q.
    - apply Z.eqb_eq in Q. subst step. assert (q = p + 1) by lia. subst q. rewrite (zget_nat _ _ Nh). cbn [rbind].
      destruct (@b_left_envs G N imax (hpre ++ [h]) (pre ++ [b]) l x o k' m (Dpre ++ [Db]) (firstn p Dhs ++ [Dh]) Dl) as (E' & WE & _); try assumption.
      { apply Forall2_app; auto. } { apply Forall2_app; [apply F2_firstn; exact Hhs|auto]. }
      { apply mps_fit_app. exists y. split; [exact Fl|]. exists r, k'. split; [exact Tb|reflexivity]. }
      { apply bofit_app with c; [exact Ol|]. exists m, r, r. rewrite Tb. repeat split; assumption. }
      rewrite lsnoc in WE by exact (eq_trans L1 (eq_sym L2)). rewrite WL in WE. cbn [rbind] in WE. rewrite WE. cbn [rbind]. rewrite zset_nat by lia. cbn [rbind].
      eexists. split; [reflexivity|]. cbn [d_sites d_env d_oc]. split; [|reflexivity].
      split; [cbn; lia|]. split; [exact Hq|]. split; [exact FN|]. split; [rewrite Eh; exact ON|]. split; [exact WN|]. split; [exact PN|]. split; [exact RN|]. split; [cbn [d_env]; rewrite upd_length; lia|]. cbn [d_env d_sites].
      split.
      + intros i Hi. rewrite nth_error_upd by lia. destruct (Nat.eqb_spec i (p + 1)) as [-> | D].
        * exists E'. split; [reflexivity|]. replace (p + 1) with (S p) by lia. rewrite (firstn_S_nth _ _ Nh), (firstn_S_nth _ _ Nb), FS by lia. rewrite lsnoc by exact (eq_trans L1 (eq_sym L2)). fold pre. fold hpre. rewrite WL. exact WE.
        * rewrite FS by lia. apply EL. lia.
      + intros i Hi. rewrite nth_error_upd by lia. destruct (Nat.eqb_spec (i + 1) (p + 1)); [lia|]. rewrite KS by lia. apply ER. lia.
    - apply Z.eqb_neq in Q. rewrite (zget_nat _ _ Nh'). cbn [rbind].
      destruct (@b_right_envs G N imax (h' :: hpost) (b' :: post) e k' m x' o' (Db' :: Dpost) (Dh' :: skipn (p + 2) Dhs) De) as (E' & WE & _); try assumption.
      { constructor; assumption. } { constructor; [assumption|apply F2_skipn; exact Hhs]. }
      { exists r', y'. split; [exact Tb'|exact Fr]. }
      { exists c', r', r'. rewrite Tb'. repeat split; assumption. }
      cbn [right_envs] in WE. rewrite WR in WE. cbn [rbind] in WE. rewrite WE. cbn [rbind]. replace (Z.of_nat (p + 1) + 1)%Z with (Z.of_nat (p + 2)) by lia. rewrite zset_nat by lia. cbn [rbind].
      eexists. split; [reflexivity|]. cbn [d_sites d_env d_oc]. split; [|reflexivity]. assert (Hqp : q <= p <= q + 1) by lia.
      split; [cbn; lia|]. split; [exact Hq|]. split; [exact FN|]. split; [rewrite Eh; exact ON|]. split; [exact WN|]. split; [exact PN|]. split; [exact RN|]. split; [cbn [d_env]; rewrite upd_length; lia|]. cbn [d_env d_sites].
      split.
      + intros i Hi. rewrite nth_error_upd by lia. destruct (Nat.eqb_spec i (p + 2)); [lia|]. rewrite FS by lia. apply EL. lia.
      + intros i Hi. rewrite nth_error_upd by lia. destruct (Nat.eqb_spec (i + 1) (p + 2)) as [D|D].
        * assert (i = p + 1) by lia. subst i. exists E'. split; [reflexivity|]. rewrite (skipn_nth _ _ Nh'), (skipn_nth _ _ Nb'). replace (S (p + 1)) with (p + 2) by lia. rewrite KS by lia. fold post. fold hpost. cbn [right_envs]. rewrite WR. exact WE.
        * rewrite KS by lia. apply ER. lia.
  Qed.

  Hypothesis HO : total_order gtb.
  Hypothesis low : forall x, gtb x rz = true -> gtb x (lower x) = true.
  Hypothesis low0 : lower rz = rz.
  Hypothesis Hmn : (1 <= mn <= mx)%Z.
  Notation vals := (fun M => snd (fst (dsvd M))).
  Hypothesis H_thin : forall M, (exists m n, dsh M = [m; n]) -> thin M (dsvd M) /\ SpecBTrunc.descending gtb (entries (vals M)) /\ forall x, In x (entries (vals M)) -> gtb rz x = false.

  (** An update that returns. *)
  Lemma bstep_any p s step q s' E : binv p s -> bdir_ok p step q -> cut_fine imax eps gtb dsvd hs l e (d_sites s) p -> step1 s step = Some (Ok (s', E)) -> binv q s' /\ exists DE, sc0 N imax E DE.
  Proof.
    intros I D CF EU.
    destruct (binv_parts I) as (a & a' & h & h' & y & r & k & r' & y' & c & m & c' & Le & Re & Hh & (Es & Eh) & (L1 & L2 & LL) & (Na & Na' & Nh & Nh') & (Ta & Ta' & Th & Th') & (Fl & Fr & Ol & Or) & (NL & NR & NH) & (WL & WR & WH) & (TL & TR & TH) & CV & Da & Da' & DL & DR & DH & HDa & HDa' & HDL & HDR & HDH).
    destruct (@update_inv _ site_up lstep rstep hs hs2 s step s' E p a a' Hh Le Re (proj1 I) Na Na' NH NL NR EU) as (b & b' & EB).
    destruct (@any_site G N W imax eps gtb lower wt dsvd thr mn mx HO low low0 Hmn H_thin (step =? 1)%Z a a' Hh Le Re Da Da' DH DL DR y r k r' y' c c' E b b' HDa HDa' HDH HDL HDR TL Ta Ta' TH TR CV) as (k' & DEt & Db & Db' & (HE & HDb & HDb') & Tb & Tb' & Rb & Rb'); [|exact EB|].
    - intros s0 Et U EM EU' WU TU. destruct (CF U (dual y) r r' y') as (C1 & C2 & C3 & C4); [|exact WU|exact TU|]; [|split; [exact C1|]; split; [exact C2|]; split; [exact C3|exact C4]].
      exists (firstn p (d_sites s)), a, a', (skipn (p + 2) (d_sites s)), (firstn p hs), h, h', (skipn (p + 2) hs), Le, Re, Hh, s0, Et. repeat split; assumption.
    - destruct (@bafter p s step q a a' Le Re Hh E b b' I D Na Na' NL NR NH EB (den_well N HDb) (den_well N HDb')) as (s1 & E1 & I1 & _).
      + intros y1 r1 k1 r1' y1' T1 T1'. rewrite Ta in T1. rewrite Ta' in T1'.
        assert (Q1 : y1 = y) by (rewrite <- (bdual_dual G y1), <- (bdual_dual G y); f_equal; exact (eq_sym (f_equal (fun v => nth 0 v (bk0 G)) T1))).
        pose proof (f_equal (fun v => nth 1 v (bk0 G)) T1) as Q2. pose proof (f_equal (fun v => nth 1 v (bk0 G)) T1') as Q3. pose proof (f_equal (fun v => nth 2 v (bk0 G)) T1') as Q4. cbn [nth] in Q2, Q3, Q4. subst y1 r1 r1' y1'. eauto.
      + rewrite Rb, Rb'. apply qop_e_r.
      + rewrite E1 in EU. injection EU as <-. split; [exact I1|]. eauto.
  Qed.
End R.

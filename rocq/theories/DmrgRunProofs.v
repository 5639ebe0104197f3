(** One update inside a run of DMRG. *)
From Verif Require Import Base Ring Index SpecIndex Dense IndexProofs BTensor BTensorArith Bcast Tensordot SpecTensordot Chain SpecChain ChainProofs ChainThms ChainInst ChainEnd
  SpecMove SpecSvd SvdDense MoveOc MoveProofs MoveInst Truncate SpecTruncate TruncateProofs BSvd BTrunc Num Lanczos SpecLanczos LanczosVec LanczosProofs SiteUpdate SpecSiteUpdate ChainNorm ChainEnergy SiteUpdateProofs SiteUpdateThms
  Dmrg DmrgProofs DmrgRun SpecDmrgRun.
Set Implicit Arguments.

Section Lists.
  Variable A : Type.
  Lemma split_pair (l : list A) p : p + 2 <= length l -> exists a a', nth_error l p = Some a /\ nth_error l (p + 1) = Some a' /\ l = firstn p l ++ [a; a'] ++ skipn (p + 2) l.
  Proof.
    intros H. destruct (@nth_error_ex _ l p) as [a Ea]; [lia|]. destruct (@nth_error_ex _ l (p + 1)) as [a' Ea']; [lia|]. exists a, a'. split; [exact Ea|]. split; [exact Ea'|].
    rewrite <- (firstn_skipn p l) at 1. f_equal. rewrite (skipn_nth _ _ Ea). replace (S p) with (p + 1) by lia. rewrite (skipn_nth _ _ Ea'). replace (S (p + 1)) with (p + 2) by lia. reflexivity.
  Qed.
  Lemma upd_pair (pre : list A) a a' post b b' : upd (upd (pre ++ [a; a'] ++ post) (length pre) b) (length pre + 1) b' = pre ++ [b; b'] ++ post.
  Proof.
    cbn [app]. rewrite EdgesProofs.upd_mid. replace (length pre + 1) with (length (pre ++ [b])) by (rewrite app_length; reflexivity).
    replace (pre ++ b :: a' :: post) with ((pre ++ [b]) ++ a' :: post) by (rewrite <- app_assoc; reflexivity). rewrite EdgesProofs.upd_mid, <- app_assoc. reflexivity.
  Qed.
  Lemma firstn_mid (pre post : list A) n : n <= length pre -> firstn n (pre ++ post) = firstn n pre.
  Proof. intros H. rewrite firstn_app. replace (n - length pre) with 0 by lia. apply app_nil_r. Qed.
  Lemma skipn_mid (pre post : list A) n : skipn (length pre + n) (pre ++ post) = skipn n post.
  Proof. rewrite skipn_app, skipn_all2 by lia. cbn. f_equal. lia. Qed.
End Lists.

Section Env.
  Context {N : numeric}.
  Notation t := (dense N).
  Notation lstep := (compute_left_env t_tdot t_conj).
  Lemma left_envs_snoc h1 : forall a1 h a (e0 : t), length a1 = length h1 -> left_envs t_tdot t_conj (h1 ++ [h]) (a1 ++ [a]) e0 = do y <- left_envs t_tdot t_conj h1 a1 e0 ; lstep h a y.
  Proof.
    induction h1 as [|o1 h1 IH]; intros [|s1 a1] h a e0 E; try discriminate; cbn [app left_envs].
    - cbn [rbind]. destruct (lstep h a e0); reflexivity.
    - destruct (lstep o1 s1 e0) as [e1| |]; cbn [rbind]; [|reflexivity..]. apply IH. cbn in E. lia.
  Qed.
  Lemma two_at l2 : forall hs0 hpre h h' hpost, hs0 = hpre ++ [h; h'] ++ hpost -> compute_2sites_hamil (@t_tdot N) t_perm hs0 = Ok l2 -> exists He, nth_error l2 (length hpre) = Some He /\ two_sites_hamil t_tdot t_perm h h' = Ok He.
  Proof.
    induction l2 as [|y l2 IH]; intros hs0 hpre h h' hpost -> E.
    - exfalso. destruct hpre as [|h0 hpre]; cbn in E; [destruct (two_sites_hamil _ _ h h'); cbn in E; try discriminate; destruct (two_sites_loop _ _ h' hpost); discriminate|].
      destruct hpre as [|h1 hpre]; cbn in E; (destruct (two_sites_hamil _ _ _ _); cbn in E; try discriminate); (destruct (two_sites_hamil _ _ _ _) || destruct (two_sites_loop _ _ _ _)); cbn in E; try discriminate;
      destruct (two_sites_loop _ _ _ _); discriminate.
    - destruct hpre as [|h0 hpre]; cbn [app length compute_2sites_hamil two_sites_loop] in E |- *.
      + destruct (two_sites_hamil _ _ h h') as [He| |]; cbn in E; try discriminate. destruct (two_sites_loop _ _ h' hpost); cbn in E; try discriminate. injection E as <- <-. exists He. auto.
      + destruct (hpre ++ [h; h'] ++ hpost) as [|h1 r] eqn:Q; [destruct hpre; discriminate|]. change (hpre ++ h :: h' :: hpost) with (hpre ++ [h; h'] ++ hpost) in E. rewrite Q in E. cbn [two_sites_loop] in E.
        destruct (two_sites_hamil _ _ h0 h1) as [y'| |]; cbn in E; try discriminate. destruct (two_sites_loop t_tdot t_perm h1 r) as [l'| |] eqn:Q2; cbn in E; try discriminate. injection E as _ ->.
        apply (IH (h1 :: r) hpre h h' hpost (eq_sym Q) Q2).
  Qed.

End Env.

Section R.
  Context {N : numeric} {W : weights}.
  Notation t := (dense N).
  Notation idk := (fun k : nat => k).
  Notation fit := (mps_fit (@dsh N) idk).
  Notation ofit := (mpo_fit (@dsh N) idk).
  Notation sizes := (map (@size N 1)).
  Variable eps : N.
  Variable dsvd : t -> t * t * t.
  Variable wt : N -> W.
  Variable thr : W.
  Variables mn mx : Z.
  Hypothesis Peps : le N rz eps.
  Hypothesis Zeps : eps <> rz.
  Hypothesis H_thin : forall M, (exists m n, dsh M = [m; n]) -> thin M (dsvd M) /\ real_entries (snd (fst (dsvd M))).
  Hypothesis H_val : forall M, (exists m n, dsh M = [m; n]) -> descending (snd (fst (dsvd M))).
  Hypothesis Hmn : (1 <= mn <= mx)%Z.
  Variables (hs hs2 : list t) (l e : t) (x o x' o' : nat) (ps : list nat).
  Hypothesis Sl : dsh l = [x; o; x].
  Hypothesis Se : dsh e = [x'; o'; x'].
  Hypothesis H2 : compute_2sites_hamil t_tdot t_perm hs = Ok hs2.
  Hypothesis HC : hermitian_chain hs l e ps.
  Notation L := (length hs).
  Notation lstep := (compute_left_env t_tdot t_conj).
  Notation rstep := (compute_right_env t_tdot t_conj).
  Notation step1 := (update_at lstep rstep (t_site_update eps dsvd wt thr mn mx) hs hs2).

  Definition inv (p : nat) (s : dst t t) : Prop :=
    d_oc s = Z.of_nat p /\ p + 2 <= L /\ fit (d_sites s) x x' /\ ofit hs (d_sites s) (d_sites s) o o' /\ sizes (d_sites s) = ps /\ length (d_env s) = L + 2 /\
    (forall i, i <= p -> exists E, nth_error (d_env s) i = Some E /\ left_envs t_tdot t_conj (firstn i hs) (firstn i (d_sites s)) l = Ok E) /\
    (forall i, p + 2 <= i <= L -> exists E, nth_error (d_env s) (i + 1) = Some E /\ right_envs t_tdot t_conj (skipn i hs) (skipn i (d_sites s)) e = Ok E) /\
    Forall (@left_isometry N) (firstn p (d_sites s)) /\ Forall (@right_isometry N) (skipn (p + 2) (d_sites s)).

  (** Everything at the pair of sites of a state. *)
  Lemma inv_parts p s : inv p s -> exists a a' h h' y q k q' y' Le Re He,
    d_sites s = firstn p (d_sites s) ++ [a; a'] ++ skipn (p + 2) (d_sites s) /\ hs = firstn p hs ++ [h; h'] ++ skipn (p + 2) hs /\
    length (firstn p (d_sites s)) = p /\ length (firstn p hs) = p /\ length (d_sites s) = L /\
    nth_error (d_sites s) p = Some a /\ nth_error (d_sites s) (p + 1) = Some a' /\ nth_error hs p = Some h /\ nth_error hs (p + 1) = Some h' /\
    dsh a = [y; q; k] /\ dsh a' = [k; q'; y'] /\ nth_error (d_env s) p = Some Le /\ nth_error (d_env s) (p + 3) = Some Re /\ nth_error hs2 p = Some He /\
    left_envs t_tdot t_conj (firstn p hs) (firstn p (d_sites s)) l = Ok Le /\ right_envs t_tdot t_conj (skipn (p + 2) hs) (skipn (p + 2) (d_sites s)) e = Ok Re /\ two_sites_hamil t_tdot t_perm h h' = Ok He.
  Proof.
    intros (Ep & Hp & F & O & Ps & Le & EL & ER & IL & IR). assert (LL : length (d_sites s) = L) by (symmetry; eapply ofit_len; eauto).
    destruct (@split_pair _ (d_sites s) p) as (a & a' & Na & Na' & Es); [lia|]. destruct (@split_pair _ hs p Hp) as (h & h' & Nh & Nh' & Eh).
    assert (L1 : length (firstn p (d_sites s)) = p) by (apply firstn_length_le; lia). assert (L2 : length (firstn p hs) = p) by (apply firstn_length_le; lia).
    rewrite Es in F. apply mps_fit_app in F as (z & F1 & (s1 & k1 & E1 & (s2 & k2 & E2 & F2))).
    destruct (EL p) as (Le' & N1 & W1); [lia|]. destruct (ER (p + 2)) as (Re & N2 & W2); [lia|]. replace (p + 2 + 1) with (p + 3) in N2 by lia.
    destruct (@two_at N hs2 hs _ h h' _ Eh H2) as (He & N3 & W3). rewrite L2 in N3.
    exists a, a', h, h', z, s1, k1, s2, k2, Le', Re, He. auto 20.
  Qed.

  Definition dir_ok (p : nat) (step : Z) (q : nat) : Prop := (Z.of_nat q = Z.of_nat p + step)%Z /\ (step = 1 \/ step = -1 \/ step = 0)%Z /\ q + 2 <= L.
  (** The new state, once the numerical part is known. *)
  Lemma after_update p s step q a a' Le Re He Et b b' y r k r' y' :
    inv p s -> dir_ok p step q -> nth_error (d_sites s) p = Some a -> nth_error (d_sites s) (p + 1) = Some a' -> nth_error (d_env s) p = Some Le -> nth_error (d_env s) (p + 3) = Some Re -> nth_error hs2 p = Some He ->
    t_site_update eps dsvd wt thr mn mx (step =? 1)%Z a a' He Le Re = Some (Ok (Et, b, b')) -> dsh a = [y; r; k] -> dsh a' = [k; r'; y'] ->
    (exists k', dsh b = [y; r; k'] /\ dsh b' = [k'; r'; y']) -> (if (step =? 1)%Z then left_isometry b else right_isometry b') ->
    exists s', step1 s step = Some (Ok (s', Et)) /\ inv q s' /\ d_sites s' = firstn p (d_sites s) ++ [b; b'] ++ skipn (p + 2) (d_sites s).
  Proof.
    intros I (Eq & Hstep & Hq) Na Na' NL NR NH EU Sa Sa' (k' & Sb & Sb') IB.
    destruct (inv_parts I) as (a1 & a1' & h & h' & y1 & q1 & k1 & q1' & y1' & Le1 & Re1 & He1 & Es & Eh & L1 & L2 & LL & Na1 & Na1' & Nh & Nh' & Sa1 & Sa1' & NL1 & NR1 & NH1 & WL & WR & WH).
    rewrite Na in Na1. rewrite Na' in Na1'. rewrite NL in NL1. rewrite NR in NR1. rewrite NH in NH1. injection Na1 as <-. injection Na1' as <-. injection NL1 as <-. injection NR1 as <-. injection NH1 as <-.
    rewrite Sa in Sa1. rewrite Sa' in Sa1'. injection Sa1 as <- <- <-. injection Sa1' as <- <-.
    destruct I as (Ep & Hp & F & O & Ps & LE & EL & ER & IL & IR).
    set (pre := firstn p (d_sites s)) in *. set (post := skipn (p + 2) (d_sites s)) in *. set (hpre := firstn p hs) in *. set (hpost := skipn (p + 2) hs) in *.
    assert (F' : fit (pre ++ [a; a'] ++ post) x x') by (rewrite <- Es; exact F). assert (O' : ofit (hpre ++ [h; h'] ++ hpost) (pre ++ [a; a'] ++ post) (pre ++ [a; a'] ++ post) o o') by (rewrite <- Es, <- Eh; exact O).
    destruct (@chain_parts N W eps dsvd wt H_thin H_val pre a a' post hpre h h' hpost x o x' o' y r k r' y') as (Fl & Fr & c & d & c' & Ol & Or & Sh & Sh'); try assumption; [congruence|].
    assert (FN : fit (pre ++ [b; b'] ++ post) x x') by (apply mps_fit_app; exists y; split; [exact Fl|]; exists r, k'; split; [exact Sb|]; exists r', y'; split; [exact Sb'|exact Fr]).
    pose proof (@chain_ofit N pre post hpre hpost h h' o o' y r r' y' c d c' Ol Or Sh Sh' b b' b b' k' k' Sb Sb' Sb Sb') as ON.
    assert (PN : sizes (pre ++ [b; b'] ++ post) = ps). { rewrite (@chain_sizes N pre post y r r' y' b b' k' Sb Sb'), <- Ps, Es. symmetry. apply (@chain_sizes N pre post y r r' y' a a' k Sa Sa'). }
    assert (S2 : upd (upd (d_sites s) p b) (p + 1) b' = pre ++ [b; b'] ++ post) by (pose proof (upd_pair pre a a' post b b') as U; rewrite L1, <- Es in U; exact U).
    set (ss := pre ++ [b; b'] ++ post) in *.
    assert (LS : length ss = L) by (unfold ss; rewrite <- LL, Es, !app_length; reflexivity).
    assert (FS : forall i, i <= p -> firstn i ss = firstn i (d_sites s)) by (intros i Hi; unfold ss; rewrite Es, !firstn_mid by lia; reflexivity).
    assert (KS : forall i, p + 2 <= i -> skipn i ss = skipn i (d_sites s)).
    { intros i Hi. unfold ss. rewrite Es. replace i with (length (pre ++ [b; b']) + (i - (p + 2))) at 1 by (rewrite app_length; cbn; lia). replace i with (length (pre ++ [a; a']) + (i - (p + 2))) at 2 by (rewrite app_length; cbn; lia).
      rewrite !app_assoc, !skipn_mid. reflexivity. }
    assert (Nb : nth_error ss p = Some b) by (unfold ss; rewrite nth_error_app2 by lia; replace (p - length pre) with 0 by lia; reflexivity).
    assert (Nb' : nth_error ss (p + 1) = Some b') by (unfold ss; rewrite nth_error_app2 by lia; replace (p + 1 - length pre) with 1 by lia; reflexivity).
    unfold update_at. rewrite Ep. rewrite (zget_nat _ _ Na). cbn [obind]. replace (Z.of_nat p + 1)%Z with (Z.of_nat (p + 1)) by lia. rewrite (zget_nat _ _ Na'). cbn [obind]. rewrite (zget_nat _ _ NH). cbn [obind].
    replace (Z.of_nat p - 1 + 1)%Z with (Z.of_nat p) by lia. rewrite (zget_nat _ _ NL). cbn [obind]. replace (Z.of_nat p + 2 + 1)%Z with (Z.of_nat (p + 3)) by lia. rewrite (zget_nat _ _ NR). cbn [obind]. rewrite EU. cbn [obind].
    rewrite zset_nat by lia. cbn [rbind]. rewrite zset_nat by (rewrite upd_length; lia). cbn [rbind]. rewrite S2.
    destruct (step =? 1)%Z eqn:Q.
    - apply Z.eqb_eq in Q. subst step. assert (q = p + 1) by lia. subst q. rewrite (zget_nat _ _ Nh). cbn [rbind].
      destruct (@d_left_envs N (hpre ++ [h]) (pre ++ [b]) l x o k' d Sl) as (E' & WE & _).
      { apply mps_fit_app. exists y. split; [exact Fl|]. exists r, k'. split; [exact Sb|reflexivity]. }
      { apply ofit_app with c; [exact Ol|]. exists d, r, r. rewrite Sb. repeat split; assumption. }
      rewrite left_envs_snoc in WE by lia. rewrite WL in WE. cbn [rbind] in WE. rewrite WE. cbn [rbind]. rewrite zset_nat by lia. cbn [rbind].
      eexists. split; [reflexivity|]. cbn [d_sites d_env d_oc]. split; [|reflexivity].
      split; [cbn; lia|]. split; [exact Hq|]. split; [exact FN|]. split; [rewrite Eh; exact ON|]. split; [exact PN|]. split; [cbn [d_env]; rewrite upd_length; lia|]. cbn [d_env d_sites].
      split; [|split; [|split]].
      + intros i Hi. rewrite nth_error_upd by lia. destruct (Nat.eqb_spec i (p + 1)) as [-> | D].
        * exists E'. split; [reflexivity|]. replace (p + 1) with (S p) by lia. rewrite (firstn_S_nth _ _ Nh), (firstn_S_nth _ _ Nb), FS by lia. rewrite left_envs_snoc by (fold pre; fold hpre; lia). fold pre. fold hpre. rewrite WL. exact WE.
        * rewrite FS by lia. apply EL. lia.
      + intros i Hi. rewrite nth_error_upd by lia. destruct (Nat.eqb_spec (i + 1) (p + 1)); [lia|]. rewrite KS by lia. apply ER. lia.
      + replace (p + 1) with (S p) by lia. rewrite (firstn_S_nth _ _ Nb), FS by lia. apply Forall_app. split; [exact IL|]. constructor; [exact IB|constructor].
      + replace (p + 1 + 2) with (p + 2 + 1) by lia. rewrite KS by lia. fold post in IR. rewrite <- skipn_skipn'. fold post. clear - IR. destruct post; [constructor|]. inversion IR; assumption.
    - apply Z.eqb_neq in Q. rewrite (zget_nat _ _ Nh'). cbn [rbind].
      destruct (@d_right_envs N (h' :: hpost) (b' :: post) e k' d x' o' Se) as (E' & WE & _).
      { exists r', y'. split; [exact Sb'|exact Fr]. }
      { exists c', r', r'. rewrite Sb'. repeat split; assumption. }
      cbn [right_envs] in WE. rewrite WR in WE. cbn [rbind] in WE. rewrite WE. cbn [rbind]. replace (Z.of_nat (p + 1) + 1)%Z with (Z.of_nat (p + 2)) by lia. rewrite zset_nat by lia. cbn [rbind].
      eexists. split; [reflexivity|]. cbn [d_sites d_env d_oc]. split; [|reflexivity]. assert (Hqp : q <= p <= q + 1) by lia.
      split; [cbn; lia|]. split; [exact Hq|]. split; [exact FN|]. split; [rewrite Eh; exact ON|]. split; [exact PN|]. split; [cbn [d_env]; rewrite upd_length; lia|]. cbn [d_env d_sites].
      split; [|split; [|split]].
      + intros i Hi. rewrite nth_error_upd by lia. destruct (Nat.eqb_spec i (p + 2)); [lia|]. rewrite FS by lia. apply EL. lia.
      + intros i Hi. rewrite nth_error_upd by lia. destruct (Nat.eqb_spec (i + 1) (p + 2)) as [D|D].
        * assert (i = p + 1) by lia. subst i. exists E'. split; [reflexivity|]. rewrite (skipn_nth _ _ Nh'), (skipn_nth _ _ Nb'). replace (S (p + 1)) with (p + 2) by lia. rewrite KS by lia. fold post. fold hpost. cbn [right_envs]. rewrite WR. exact WE.
        * rewrite KS by lia. apply ER. lia.
      + rewrite FS by lia. replace q with (Nat.min q p) by lia. rewrite <- firstn_firstn. fold pre. clear - IL. revert q. induction pre as [|u v IH]; intros [|q]; cbn; constructor; inversion IL; subst; auto.
      + destruct (Nat.eq_dec q p) as [-> | D]; [rewrite KS by lia; exact IR|]. replace (q + 2) with (p + 1) by lia. rewrite (skipn_nth _ _ Nb'). replace (S (p + 1)) with (p + 2) by lia. rewrite KS by lia. constructor; [exact IB|exact IR].
  Qed.

  (** What is asked of the state before an update. *)
  Definition good (p : nat) (sites : list t) : Prop :=
    svd_right dsvd eps hs l e sites p /\ forall k, bond_max sites p k -> (Z.of_nat k <= 2 ^ 63)%Z.
  Definition gauge (c : nat) (sites : list t) : Prop := Forall (@left_isometry N) (firstn c sites) /\ Forall (@right_isometry N) (skipn (c + 1) sites).
  Definition centre_after (p : nat) (step : Z) : nat := if (step =? 1)%Z then p + 1 else p.
  Lemma gauge_after p s sites' step b b' : inv p s -> sites' = firstn p (d_sites s) ++ [b; b'] ++ skipn (p + 2) (d_sites s) -> (if (step =? 1)%Z then left_isometry b else right_isometry b') -> gauge (centre_after p step) sites'.
  Proof.
    intros I -> IB. destruct (inv_parts I) as (a & a' & h & h' & y & r & k & r' & y' & Le & Re & He & Es & Eh & L1 & _). destruct I as (_ & _ & _ & _ & _ & _ & _ & _ & IL & IR).
    set (pre := firstn p (d_sites s)) in *. set (post := skipn (p + 2) (d_sites s)) in *. unfold gauge, centre_after. destruct (step =? 1)%Z.
    - split.
      + replace (pre ++ [b; b'] ++ post) with ((pre ++ [b]) ++ b' :: post) by (rewrite <- app_assoc; reflexivity). replace (p + 1) with (length (pre ++ [b]) + 0) by (rewrite app_length; cbn; lia). rewrite firstn_app_2. cbn [firstn]. rewrite app_nil_r.
        apply Forall_app. split; [exact IL|]. constructor; [exact IB|constructor].
      + replace (p + 1 + 1) with (length pre + 2) by lia. rewrite skipn_mid. exact IR.
    - split.
      + replace p with (length pre + 0) by lia. rewrite firstn_app_2. cbn [firstn]. rewrite app_nil_r. exact IL.
      + replace (p + 1) with (length pre + 1) by lia. rewrite skipn_mid. cbn. constructor; [exact IB|exact IR].
  Qed.

  (** An update that returns. *)
  Lemma step_any p s step q s' E : inv p s -> dir_ok p step q -> good p (d_sites s) -> chain_norm (d_sites s) x x' <> rz -> step1 s step = Some (Ok (s', E)) ->
    inv q s' /\ chain_norm (d_sites s') x x' = ro /\ gauge (centre_after p step) (d_sites s').
  Proof.
    intros I D (GS & GK) HN EU.
    destruct (inv_parts I) as (a & a' & h & h' & y & r & k & r' & y' & Le & Re & He & Es & Eh & L1 & L2 & LL & Na & Na' & Nh & Nh' & Sa & Sa' & NL & NR & NH & WL & WR & WH).
    assert (EX : exists b b', t_site_update eps dsvd wt thr mn mx (step =? 1)%Z a a' He Le Re = Some (Ok (E, b, b'))).
    { destruct I as (Ep & _). revert EU. unfold update_at. rewrite Ep, (zget_nat _ _ Na). cbn [obind]. replace (Z.of_nat p + 1)%Z with (Z.of_nat (p + 1)) by lia. rewrite (zget_nat _ _ Na'). cbn [obind]. rewrite (zget_nat _ _ NH). cbn [obind].
      replace (Z.of_nat p - 1 + 1)%Z with (Z.of_nat p) by lia. rewrite (zget_nat _ _ NL). cbn [obind]. replace (Z.of_nat p + 2 + 1)%Z with (Z.of_nat (p + 3)) by lia. rewrite (zget_nat _ _ NR). cbn [obind].
      destruct (t_site_update _ _ _ _ _ _ _ _ _ _ _ _) as [[[[E1 b] b']| |]|]; cbn [obind]; try discriminate. intros EU. injection EU as EU. exists b, b'. revert EU.
      destruct (zset (d_sites s) _ b); cbn [rbind]; try discriminate. destruct (zset _ _ b'); cbn [rbind]; try discriminate. match goal with |- context [rbind ?x _] => destruct x end; cbn [rbind]; try discriminate. intros [= _ ->]. reflexivity. }
    destruct EX as (b & b' & EB). pose proof I as (Ep & Hp & F & O & Ps & LE & EL & ER & IL & IR).
    assert (HC' : hermitian_chain (firstn p hs ++ [h; h'] ++ skipn (p + 2) hs) l e (sizes (firstn p (d_sites s) ++ [a; a'] ++ skipn (p + 2) (d_sites s)))) by (rewrite <- Es, <- Eh, Ps; exact HC).
    destruct (@site_update_any N W eps dsvd wt thr mn mx H_thin H_val Hmn (step =? 1)%Z (firstn p (d_sites s)) a a' (skipn (p + 2) (d_sites s)) (firstn p hs) h h' (skipn (p + 2) hs) l e x o x' o' y r k r' y' Le He Re E b b')
      as (k' & Sb & Sb' & F' & N' & IB & _); try assumption; try (rewrite <- Es; assumption); [congruence|rewrite <- Es, <- Eh; exact O| | |].
    - apply GK. exists (firstn p (d_sites s)), a, a', (skipn (p + 2) (d_sites s)). split; [exact Es|]. split; [exact L1|]. unfold size. rewrite Sa, Sa'. reflexivity.
    - intros s0 Et0 U M0 EM EU0 CM. eapply GS; [|exact WL|exact WR|exact WH|exact EM|exact EU0|exact CM]. repeat split; assumption.
    - destruct (@after_update p s step q a a' Le Re He E b b' y r k r' y' I D Na Na' NL NR NH EB Sa Sa') as (s1 & E1 & I1 & S1); [eauto|exact IB|]. rewrite E1 in EU. injection EU as <-.
      split; [exact I1|]. split; [rewrite S1; exact N'|]. eapply gauge_after; [exact I|exact S1|exact IB].
  Qed.
  (** An update that has to return. *)
  Lemma step_go p s step q : inv p s -> dir_ok p step q -> good p (d_sites s) -> chain_norm (d_sites s) x x' = ro -> improvable_at eps hs l e (d_sites s) p ->
    exists s' E, step1 s step = Some (Ok (s', E)) /\ dsh E = [] /\
      (full_bond (d_sites s') p -> chain_energy hs l e (d_sites s') = dv E [] /\ le N (dv E []) (chain_energy hs l e (d_sites s))).
  Proof.
    intros I D (GS & GK) HN HI.
    destruct (inv_parts I) as (a & a' & h & h' & y & r & k & r' & y' & Le & Re & He & Es & Eh & L1 & L2 & LL & Na & Na' & Nh & Nh' & Sa & Sa' & NL & NR & NH & WL & WR & WH).
    pose proof I as (Ep & Hp & F & O & Ps & LE & EL & ER & IL & IR).
    assert (HC' : hermitian_chain (firstn p hs ++ [h; h'] ++ skipn (p + 2) hs) l e (sizes (firstn p (d_sites s) ++ [a; a'] ++ skipn (p + 2) (d_sites s)))) by (rewrite <- Es, <- Eh, Ps; exact HC).
    destruct (@site_update_ok N W eps dsvd wt thr mn mx Peps Zeps H_thin H_val Hmn (step =? 1)%Z (firstn p (d_sites s)) a a' (skipn (p + 2) (d_sites s)) (firstn p hs) h h' (skipn (p + 2) hs) l e x o x' o' y r k r' y' Le He Re)
      as (E & b & b' & k' & EB & Sb & Sb' & F' & N' & IB & Bk & _ & EE); try assumption; try (rewrite <- Es; assumption); [congruence|rewrite <- Es, <- Eh; exact O| | | |].
    - pose proof (HI _ a a' _ _ h h' _ (Logic.conj Es (Logic.conj Eh (Logic.conj L1 L2)))) as Q. unfold size in Q. rewrite Sa, Sa' in Q. exact Q.
    - apply GK. exists (firstn p (d_sites s)), a, a', (skipn (p + 2) (d_sites s)). split; [exact Es|]. split; [exact L1|]. unfold size. rewrite Sa, Sa'. reflexivity.
    - intros s0 Et0 U M0 EM EU0 CM. eapply GS; [|exact WL|exact WR|exact WH|exact EM|exact EU0|exact CM]. repeat split; assumption.
    - destruct (@after_update p s step q a a' Le Re He E b b' y r k r' y' I D Na Na' NL NR NH EB Sa Sa') as (s1 & E1 & I1 & S1); [eauto|exact IB|]. exists s1, E. split; [exact E1|]. split.
      + assert (F0 : fit (firstn p (d_sites s) ++ [a; a'] ++ skipn (p + 2) (d_sites s)) x x') by (rewrite <- Es; exact F).
        assert (O0 : ofit (firstn p hs ++ [h; h'] ++ skipn (p + 2) hs) (firstn p (d_sites s) ++ [a; a'] ++ skipn (p + 2) (d_sites s)) (firstn p (d_sites s) ++ [a; a'] ++ skipn (p + 2) (d_sites s)) o o') by (rewrite <- Es, <- Eh; exact O).
        destruct (@chain_parts N W eps dsvd wt H_thin H_val (firstn p (d_sites s)) a a' (skipn (p + 2) (d_sites s)) (firstn p hs) h h' (skipn (p + 2) hs) x o x' o' y r k r' y') as (Fl & Fr & c & d & c' & Ol & Or & Sh & Sh'); try assumption; [congruence|].
        rewrite (@chain_sizes N _ _ y r r' y' a a' k Sa Sa') in HC'.
        pose proof (@env_fits N _ _ _ _ h h' l e x o x' o' y r r' y' c d c' Sl Se Fl Fr Ol Or Sh Sh' Le He Re WL WR WH) as FT.
        pose proof (@heff_hermitian N _ _ _ _ h h' l e x o x' o' y r r' y' c d c' Sl Se Fl Fr Ol Or Sh Sh' Le He Re WL WR WH HC') as HM.
        destruct (@merge_ok N a a' y r k r' y' Sa Sa') as (s0 & EM & Ss & Vs).
        destruct (@update_run N Le He Re y r r' y' FT eps s0 Ss HM) as (_ & _ & _ & _ & _ & _ & _ & _ & _ & _ & _ & Et' & U & EU & SE & _).
        rewrite (@site_halves N W eps dsvd wt thr mn mx (step =? 1)%Z a a' He Le Re s0 Et' U EM EU) in EB. destruct (d_svd_trunc _ _ _ _ _ U 2) as [[w| |]|]; cbn [obind] in EB; try discriminate.
        destruct (halves _ _ w); cbn [rbind] in EB; try discriminate. injection EB as <- _ _. exact SE.
      + intros FB. unfold chain_energy. rewrite S1. rewrite <- Es, <- Eh in EE. apply EE.
        assert (NB : nth_error (d_sites s1) p = Some b) by (rewrite S1, nth_error_app2 by lia; rewrite L1, Nat.sub_diag; reflexivity).
        destruct (FB (Nat.min (y * r) (r' * y'))) as (A & NA & SA).
        { exists (firstn p (d_sites s)), b, b', (skipn (p + 2) (d_sites s)). split; [exact S1|]. split; [exact L1|]. unfold size. rewrite Sb, Sb'. reflexivity. }
        rewrite NB in NA. injection NA as <-. unfold size in SA. rewrite Sb in SA. exact SA.
  Qed.
End R.

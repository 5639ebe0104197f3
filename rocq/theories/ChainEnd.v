(** The chain theorems for dense and for block tensors. *)
From Verif Require Import Base Quantity Ring SpecIndex Dense BTensor SpecBTensor BTensorProofs BTensorArith Tensordot SpecTensordot Chain SpecChain ChainProofs ChainThms ChainInst.
Set Implicit Arguments.

Section D.
  Variable R : ring.
  Notation t := (dense R).
  Notation idk := (fun k : nat => k).
  Lemma deq_refl (A : t) : deq A A. Proof. split; reflexivity. Qed.
  Lemma dden_all (l : list t) : Forall2 (@dden R) l l. Proof. induction l; constructor; [apply deq_refl|assumption]. Qed.
  Ltac dgo := try first [eassumption | apply dden_all | apply deq_refl | exact (@dden_shape R) | exact (@dden_tdot R) | exact (@dden_conj R) | exact (@dden_perm R) | intros; reflexivity].
  Lemma d_contract_obs (a b h : list t) l e x o y x' o' y' : dsh l = [x; o; y] -> dsh e = [x'; o'; y'] ->
    mps_fit (@dsh R) idk a x x' -> mps_fit (@dsh R) idk b y y' -> mpo_fit (@dsh R) idk h a b o o' ->
    exists s, contract_obs t_tdot t_conj a b h l e = Ok s /\ dsh s = [] /\ dv s [] = expectation a b h l e.
  Proof.
    intros. edestruct (@contract_obs_ok R t nat (@dsh R) idk idk 0 (@dden R) t_tdot t_conj t_perm) with (a := a) (b := b) (h := h) (l := l) (e := e) (Dl := l) (De := e) as (s & Ds & E & T & D & V); dgo.
    exists s. split; [exact E|]. split; [exact T|]. destruct D as [_ D]. rewrite <- V. apply D. rewrite T. reflexivity.
  Qed.
  Lemma d_contract (a b : list t) l e x y x' y' : dsh l = [x; y] -> dsh e = [x'; y'] ->
    mps_fit (@dsh R) idk a x x' -> mps_fit (@dsh R) idk b y y' -> same_phys (@dsh R) a b ->
    exists s, contract t_tdot t_conj a b l e = Ok s /\ dsh s = [] /\ dv s [] = inner a b l e.
  Proof.
    intros. edestruct (@contract_ok R t nat (@dsh R) idk idk 0 (@dden R) t_tdot t_conj t_perm) with (a := a) (b := b) (l := l) (e := e) (Dl := l) (De := e) as (s & Ds & E & T & D & V); dgo.
    exists s. split; [exact E|]. split; [exact T|]. destruct D as [_ D]. rewrite <- V. apply D. rewrite T. reflexivity.
  Qed.
  Lemma in_range3 x y z i j k : i < x -> j < y -> k < z -> in_range [x; y; z] [i; j; k] = true.
  Proof. intros. cbn. rewrite !andb_true_iff, !Nat.ltb_lt. auto. Qed.
  Lemma d_left_envs (h a : list t) l x o x' o' : dsh l = [x; o; x] -> mps_fit (@dsh R) idk a x x' -> mpo_fit (@dsh R) idk h a a o o' ->
    exists l', left_envs t_tdot t_conj h a l = Ok l' /\ dsh l' = [x'; o'; x'] /\
      forall i j k, in_range (dsh l') [i; j; k] = true -> dv l' [i; j; k] = left_part a h l i j k.
  Proof.
    intros El Fa Fh. edestruct (@left_envs_ok R t nat (@dsh R) idk idk 0 (@dden R) t_tdot t_conj t_perm) with (a := a) (h := h) (l := l) (Dl := l) (x := x) as (s & Ds & E & T & D & V);
      dgo.
    exists s. split; [exact E|]. split; [exact T|]. destruct D as [_ D]. intros i j k HI. rewrite (D _ HI). rewrite T in HI. cbn in HI. rewrite !andb_true_iff, !Nat.ltb_lt in HI.
    rewrite V by tauto. unfold left_part, size. rewrite El. reflexivity.
  Qed.
  Lemma d_right_envs (h a : list t) r x o x' o' : dsh r = [x'; o'; x'] -> mps_fit (@dsh R) idk a x x' -> mpo_fit (@dsh R) idk h a a o o' ->
    exists r', right_envs t_tdot t_conj h a r = Ok r' /\ dsh r' = [x; o; x] /\
      forall i j k, in_range (dsh r') [i; j; k] = true -> dv r' [i; j; k] = right_part a h r i j k.
  Proof.
    intros El Fa Fh. edestruct (@right_envs_ok R t nat (@dsh R) idk idk 0 (@dden R) t_tdot t_conj t_perm) with (a := a) (h := h) (r := r) (Dr := r) (x' := x') as (s & Ds & E & T & D & V);
      dgo.
    exists s. split; [exact E|]. split; [exact T|]. destruct D as [_ D]. intros i j k HI. rewrite (D _ HI). rewrite T in HI. cbn in HI. rewrite !andb_true_iff, !Nat.ltb_lt in HI.
    rewrite V by tauto. unfold right_part, size. rewrite El. reflexivity.
  Qed.
  Lemma d_heff (pre post : list t) a a' b b' hpre hpost h h' l e x o x' o' : length hpre = length pre ->
    dsh l = [x; o; x] -> dsh e = [x'; o'; x'] ->
    mps_fit (@dsh R) idk (pre ++ [a; a'] ++ post) x x' -> mps_fit (@dsh R) idk (pre ++ [b; b'] ++ post) x x' ->
    mpo_fit (@dsh R) idk (hpre ++ [h; h'] ++ hpost) (pre ++ [a; a'] ++ post) (pre ++ [b; b'] ++ post) o o' ->
    exists v, (do L <- left_envs t_tdot t_conj hpre pre l ; do E <- right_envs t_tdot t_conj hpost post e ;
        do s <- merge t_tdot a a' ; do H <- two_sites_hamil t_tdot t_perm h h' ; do t <- merge t_tdot b b' ;
        do p <- hamil2site_times_state t_tdot s H L E ; t_tdot p (t_conj t) [0; 1; 2; 3] [0; 1; 2; 3]) = Ok v /\
      dsh v = [] /\ dv v [] = expectation (pre ++ [a; a'] ++ post) (pre ++ [b; b'] ++ post) (hpre ++ [h; h'] ++ hpost) l e.
  Proof.
    intros. edestruct (@heff_ok R t nat (@dsh R) idk idk 0 (@dden R) t_tdot t_conj t_perm) with (pre := pre) (post := post) (a := a) (a' := a') (b := b) (b' := b') (hpre := hpre) (hpost := hpost) (h := h) (h' := h') (Dpre := pre) (Dpost := post) (Dab := [a; a']) (Dbb := [b; b']) (l := l) (e := e) (Dl := l) (De := e) as (s & Ds & E & T & D & V);
      dgo.
    exists s. split; [exact E|]. split; [exact T|]. destruct D as [_ D]. rewrite <- V. apply D. rewrite T. reflexivity.
  Qed.
  Lemma d_two_sites (h : t) l x y : op_chain (@dsh R) idk (h :: l) x y ->
    exists r, compute_2sites_hamil t_tdot t_perm (h :: l) = Ok r /\ length r = length l /\
      forall i t A B, nth_error r i = Some t -> nth_error (h :: l) i = Some A -> nth_error (h :: l) (S i) = Some B -> deq t (two_site A B).
  Proof.
    intros HC. edestruct (@two_sites_ok R t nat (@dsh R) idk idk 0 (@dden R) t_tdot t_conj t_perm) with (l := l) (h := h) (Dh := h) (Dl := l) as (r & E & L & P); dgo.
    exists r. split; [exact E|]. split; [exact L|]. intros i u A B H1 H2 H3. cbn [nth_error] in H3. destruct (P i u A B A B H1 H2 H3 H2 H3) as (D & HD & Q & _).
    destruct HD as [D1 D2], Q as [Q1 Q2]. split; [congruence|]. intros j Hj. rewrite (D2 j Hj). apply Q2. rewrite <- D1. exact Hj.
  Qed.
End D.

Section B.
  Variable G : abgroup.
  Variable R : ring.
  Variable imax : nat.
  Notation bt := (btensor G R).
  Notation tl := (@blegs G R).
  Notation dual := (@bdual G).
  Notation den := (@stored G R imax).
  Ltac go := try first [eassumption | exact (@bdual_dual G) | exact (@bdual_size G) | exact (@stored_shape G R imax) | exact (@stored_tdot G R imax) | exact (@stored_conj G R imax) | exact (@stored_perm G R imax)].
  Lemma stored_scalar (s : bt) D v : tl s = [] -> den s D -> dv D [] = v -> den s (scalar v).
  Proof.
    intros T (V & DF & I) E. split; [exact V|]. split; [|exact I]. subst v.
    pose proof (@stored_shape G R imax s D (Logic.conj V (Logic.conj DF I))) as S. rewrite T in S. cbn in S.
    apply dense_form_deq with D; [apply V|exact DF|]. split; [rewrite S; reflexivity|]. intros i HI. rewrite S in HI. destruct i; [reflexivity|discriminate].
  Qed.
  Lemma b_contract_obs (a b h : list bt) l e x o y x' o' y' Da Db Dh Dl De : Forall2 den a Da -> Forall2 den b Db -> Forall2 den h Dh -> den l Dl -> den e De ->
    tl l = [x; o; dual y] -> tl e = [dual x'; dual o'; y'] -> mps_fit tl dual a x x' -> mps_fit tl dual b y y' -> mpo_fit tl dual h a b o o' ->
    exists s, contract_obs (tensordot imax) (@conj G R) a b h l e = Ok s /\ den s (scalar (expectation Da Db Dh Dl De)).
  Proof.
    intros. edestruct (@contract_obs_ok R bt _ tl dual (@bsz G) (bk0 G) den (tensordot imax) (@conj G R) b_perm) with (a := a) (b := b) (h := h) (l := l) (e := e) (Dl := Dl) (De := De) (Da := Da) (Db := Db) (Dh := Dh) as (s & Ds & E & T & D & V); go.
    exists s. split; [exact E|]. eapply stored_scalar; eassumption.
  Qed.
  Lemma b_contract (a b : list bt) l e x y x' y' Da Db Dl De : Forall2 den a Da -> Forall2 den b Db -> den l Dl -> den e De ->
    tl l = [x; dual y] -> tl e = [dual x'; y'] -> mps_fit tl dual a x x' -> mps_fit tl dual b y y' -> same_phys tl a b ->
    exists s, contract (tensordot imax) (@conj G R) a b l e = Ok s /\ den s (scalar (inner Da Db Dl De)).
  Proof.
    intros. edestruct (@contract_ok R bt _ tl dual (@bsz G) (bk0 G) den (tensordot imax) (@conj G R) b_perm) with (a := a) (b := b) (l := l) (e := e) (Dl := Dl) (De := De) (Da := Da) (Db := Db) as (s & Ds & E & T & D & V); go.
    exists s. split; [exact E|]. eapply stored_scalar; eassumption.
  Qed.
  Lemma stored_env (s : bt) D x o y f : tl s = [x; o; y] -> den s D ->
    (forall i j k, i < @bsz G x -> j < @bsz G o -> k < @bsz G y -> dv D [i; j; k] = f i j k) ->
    den s (mkD (map (@bsz G) (tl s)) (fun i => f (nth 0 i 0) (nth 1 i 0) (nth 2 i 0))).
  Proof.
    intros T DD V. pose proof (stored_shape DD) as S. destruct DD as (HV & DF & I). split; [exact HV|]. split; [|exact I].
    apply dense_form_deq with D; [apply HV|exact DF|]. split; [cbn [dsh]; exact S|]. intros i HI. rewrite S, T in HI. cbn [dv].
    destruct i as [|i [|j [|k [|? ?]]]]; cbn in HI; rewrite ?andb_false_r in HI; try discriminate. rewrite !andb_true_iff, !Nat.ltb_lt in HI. cbn [nth]. apply V; tauto.
  Qed.
  Lemma b_left_envs (h a : list bt) l x o x' o' Da Dh Dl : Forall2 den a Da -> Forall2 den h Dh -> den l Dl ->
    tl l = [x; o; dual x] -> mps_fit tl dual a x x' -> mpo_fit tl dual h a a o o' ->
    exists l', left_envs (tensordot imax) (@conj G R) h a l = Ok l' /\ tl l' = [x'; o'; dual x'] /\
      den l' (mkD (map (@bsz G) (tl l')) (fun i => left_part Da Dh Dl (nth 0 i 0) (nth 1 i 0) (nth 2 i 0))).
  Proof.
    intros HDa HDh HDl El Fa Fh. edestruct (@left_envs_ok R bt _ tl dual (@bsz G) (bk0 G) den (tensordot imax) (@conj G R) b_perm) with (a := a) (h := h) (l := l) (Dl := Dl) (Da := Da) (Dh := Dh) as (s & Ds & E & T & D & V); go.
    exists s. split; [exact E|]. split; [exact T|]. eapply stored_env with (f := fun i j k => left_part Da Dh Dl i j k); [exact T|exact D|]. intros i j k Hi Hj Hk.
    rewrite V by assumption. unfold left_part, size. rewrite (stored_shape HDl), El. reflexivity.
  Qed.
  Lemma b_right_envs (h a : list bt) r x o x' o' Da Dh Dr : Forall2 den a Da -> Forall2 den h Dh -> den r Dr ->
    tl r = [dual x'; dual o'; x'] -> mps_fit tl dual a x x' -> mpo_fit tl dual h a a o o' ->
    exists r', right_envs (tensordot imax) (@conj G R) h a r = Ok r' /\ tl r' = [dual x; dual o; x] /\
      den r' (mkD (map (@bsz G) (tl r')) (fun i => right_part Da Dh Dr (nth 0 i 0) (nth 1 i 0) (nth 2 i 0))).
  Proof.
    intros HDa HDh HDr Er Fa Fh. edestruct (@right_envs_ok R bt _ tl dual (@bsz G) (bk0 G) den (tensordot imax) (@conj G R) b_perm) with (a := a) (h := h) (r := r) (Dr := Dr) (Da := Da) (Dh := Dh) as (s & Ds & E & T & D & V); go.
    exists s. split; [exact E|]. split; [exact T|]. eapply stored_env with (f := fun i j k => right_part Da Dh Dr i j k); [exact T|exact D|]. intros i j k Hi Hj Hk.
    rewrite V by assumption. unfold right_part, size. rewrite (stored_shape HDr), Er. reflexivity.
  Qed.
  Lemma b_heff (pre post : list bt) a a' b b' hpre hpost h h' l e x o x' o' Dpre Dpost Dab Dbb Dhpre Dhpost Dhh Dl De :
    Forall2 den pre Dpre -> Forall2 den post Dpost -> Forall2 den [a; a'] Dab -> Forall2 den [b; b'] Dbb ->
    Forall2 den hpre Dhpre -> Forall2 den hpost Dhpost -> Forall2 den [h; h'] Dhh -> den l Dl -> den e De ->
    length hpre = length pre -> tl l = [x; o; dual x] -> tl e = [dual x'; dual o'; x'] ->
    mps_fit tl dual (pre ++ [a; a'] ++ post) x x' -> mps_fit tl dual (pre ++ [b; b'] ++ post) x x' ->
    mpo_fit tl dual (hpre ++ [h; h'] ++ hpost) (pre ++ [a; a'] ++ post) (pre ++ [b; b'] ++ post) o o' ->
    exists v, (do L <- left_envs (tensordot imax) (@conj G R) hpre pre l ; do E <- right_envs (tensordot imax) (@conj G R) hpost post e ;
        do s <- merge (tensordot imax) a a' ; do H <- two_sites_hamil (tensordot imax) b_perm h h' ; do t <- merge (tensordot imax) b b' ;
        do p <- hamil2site_times_state (tensordot imax) s H L E ; tensordot imax p (conj t) [0; 1; 2; 3] [0; 1; 2; 3]) = Ok v /\
      den v (scalar (expectation (Dpre ++ Dab ++ Dpost) (Dpre ++ Dbb ++ Dpost) (Dhpre ++ Dhh ++ Dhpost) Dl De)).
  Proof.
    intros. edestruct (@heff_ok R bt _ tl dual (@bsz G) (bk0 G) den (tensordot imax) (@conj G R) b_perm) with (pre := pre) (post := post) (a := a) (a' := a') (b := b) (b' := b') (hpre := hpre) (hpost := hpost) (h := h) (h' := h')
      (Dpre := Dpre) (Dpost := Dpost) (Dab := Dab) (Dbb := Dbb) (Dhpre := Dhpre) (Dhpost := Dhpost) (Dhh := Dhh) (l := l) (e := e) (Dl := Dl) (De := De) as (s & Ds & E & T & D & V); go.
    exists s. split; [exact E|]. eapply stored_scalar; eassumption.
  Qed.
  Lemma b_two_sites (h : bt) l x y Dh Dl : den h Dh -> Forall2 den l Dl -> op_chain tl dual (h :: l) x y ->
    exists r, compute_2sites_hamil (tensordot imax) b_perm (h :: l) = Ok r /\ length r = length l /\
      forall i t A B D0 D1, nth_error r i = Some t -> nth_error (h :: l) i = Some A -> nth_error (h :: l) (S i) = Some B ->
        nth_error (Dh :: Dl) i = Some D0 -> nth_error (Dh :: Dl) (S i) = Some D1 ->
        den t (two_site D0 D1) /\ tl t = [nth 0 (tl A) (bk0 G); nth 1 (tl A) (bk0 G); nth 1 (tl B) (bk0 G); nth 2 (tl B) (bk0 G); nth 3 (tl A) (bk0 G); nth 3 (tl B) (bk0 G)].
  Proof.
    intros HD HDl HC. edestruct (@two_sites_ok R bt _ tl dual (@bsz G) (bk0 G) den (tensordot imax) (@conj G R) b_perm) with (l := l) (h := h) (Dh := Dh) (Dl := Dl) as (r & E & L & P); go.
    exists r. split; [exact E|]. split; [exact L|]. intros i u A B D0 D1 H1 H2 H3 H4 H5. cbn [nth_error] in H3, H5. destruct (P i u A B D0 D1 H1 H2 H3 H4 H5) as (D & (V & DF & I) & Q & TT).
    split; [|exact TT]. split; [exact V|]. split; [|exact I]. apply dense_form_deq with D; [apply V|exact DF|exact Q].
  Qed.
End B.

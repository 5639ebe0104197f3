(** The energy of a chain as the energy of two of its sites between environments. *)
From Verif Require Import Base Ring Index SpecIndex Dense IndexProofs BTensor BTensorArith Bcast Tensordot SpecTensordot Chain SpecChain ChainProofs ChainThms ChainInst ChainEnd SpecMove Num
  SpecLanczos LanczosVec LanczosProofs SpecSiteUpdate ChainNorm.
Set Implicit Arguments.

Section E.
  Variable N : numeric.
  Add Ring Rr : (ring_th N).
  Notation t := (dense N).
  Notation idk := (fun k : nat => k).
  Notation fit := (mps_fit (@dsh N) idk).
  Notation ofit := (mpo_fit (@dsh N) idk).
  Notation sizes := (map (@size N 1)).
  Ltac inn := apply sumf_ext; intros ? _.
  Ltac small := cbn; intros; repeat match goal with H : _ \/ _ |- _ => destruct H end; try contradiction; subst; lia.
  Ltac dist := repeat (constructor; [cbn; intuition congruence|]); constructor.

  Lemma merge_ok (a a' : t) x p k p' y : dsh a = [x; p; k] -> dsh a' = [k; p'; y] ->
    exists s, merge t_tdot a a' = Ok s /\ dsh s = [x; p; p'; y] /\ forall i, in_range [x; p; p'; y] i = true -> dv s i = pair_amp a a' i.
  Proof.
    intros Sa Sa'. destruct (@tdot_self N a a' [2] [0]) as (s & Es & Ss & Vs); try (rewrite ?Sa, ?Sa'; solve [small | dist | reflexivity]).
    cbn [d_tdot dsh] in Ss. rewrite Sa, Sa' in Ss. change (dsh s = [x; p; p'; y]) in Ss. exists s. split; [exact Es|]. split; [exact Ss|]. intros i Hi. rewrite Vs by (rewrite Ss; exact Hi).
    apply in_range4 in Hi as (i0 & i1 & i2 & i3 & -> & H0 & H1 & H2 & H3). rewrite (@pair_val N a a' k y) by (unfold size; rewrite ?Sa, ?Sa'; solve [reflexivity | assumption]).
    cbn [d_tdot dv]. rewrite Sa, Sa'. cbv beta iota delta [length free gather seq filter map nth existsb Nat.eqb negb orb app firstn skipn coords slot index_of inv_perm]. rewrite sum_idxs1. reflexivity.
  Qed.
  Lemma hamil_ok (h h' : t) q p r p' q' : dsh h = [q; p; r; p] -> dsh h' = [r; p'; q'; p'] ->
    exists H, two_sites_hamil t_tdot t_perm h h' = Ok H /\ dsh H = [q; p; p'; q'; p; p'] /\ forall i, in_range (dsh H) i = true -> dv H i = dv (two_site h h') i.
  Proof.
    intros Sh Sh'. destruct (@d_two_sites N h [h'] q q') as (l & E & L & P); [exists p, r, p; split; [exact Sh|]; exists p', q', p'; split; [exact Sh'|reflexivity]|].
    cbn in E. destruct (two_sites_hamil t_tdot t_perm h h') as [H| |]; try discriminate. cbn in E. injection E as <-. exists H. split; [reflexivity|].
    destruct (P 0 H h h' eq_refl eq_refl eq_refl) as [D V]. split; [|exact V]. rewrite D. cbn [two_site dsh]. unfold size. rewrite Sh, Sh'. reflexivity.
  Qed.

  Variables (pre post hpre hpost : list t) (h h' l e : t) (x o x' o' y p p' y' q r q' : nat).
  Hypothesis Sl : dsh l = [x; o; x]. Hypothesis Se : dsh e = [x'; o'; x'].
  Hypothesis Fl : fit pre x y. Hypothesis Fr : fit post y' x'.
  Hypothesis Ol : ofit hpre pre pre o q. Hypothesis Or : ofit hpost post post q' o'.
  Hypothesis Sh : dsh h = [q; p; r; p]. Hypothesis Sh' : dsh h' = [r; p'; q'; p'].
  Notation sh := [y; p; p'; y'].
  Variables Le He Re : t.
  Hypothesis HL : left_envs t_tdot t_conj hpre pre l = Ok Le.
  Hypothesis HR : right_envs t_tdot t_conj hpost post e = Ok Re.
  Hypothesis HH : two_sites_hamil t_tdot t_perm h h' = Ok He.
  Notation M := (heff Le He Re).
  Notation chain a a' := (pre ++ [a; a'] ++ post).
  Notation ops := (hpre ++ [h; h'] ++ hpost).

  Lemma env_fits : fits Le He Re y p p' y'.
  Proof.
    destruct (@d_left_envs N hpre pre l x o y q Sl Fl Ol) as (L' & E1 & S1 & _). rewrite HL in E1. injection E1 as <-.
    destruct (@d_right_envs N hpost post e y' q' x' o' Se Fr Or) as (R' & E2 & S2 & _). rewrite HR in E2. injection E2 as <-.
    destruct (@hamil_ok h h' q p r p' q' Sh Sh') as (H' & E3 & S3 & _). rewrite HH in E3. injection E3 as <-.
    exists q, q'. auto.
  Qed.
  (** The matrix between environments, by its definition. *)
  Lemma heff_local i j : in_range sh i = true -> in_range sh j = true -> M i j = local_matrix pre hpre h h' post hpost l e i j.
  Proof.
    destruct (@d_left_envs N hpre pre l x o y q Sl Fl Ol) as (L' & E1 & S1 & V1). rewrite HL in E1. injection E1 as <-.
    destruct (@d_right_envs N hpost post e y' q' x' o' Se Fr Or) as (R' & E2 & S2 & V2). rewrite HR in E2. injection E2 as <-.
    destruct (@hamil_ok h h' q p r p' q' Sh Sh') as (H' & E3 & S3 & V3). rewrite HH in E3. injection E3 as <-.
    intros Hi Hj. apply in_range4 in Hi as (i0 & i1 & i2 & i3 & -> & ? & ? & ? & ?). apply in_range4 in Hj as (j0 & j1 & j2 & j3 & -> & ? & ? & ? & ?).
    unfold heff, local_matrix, size. rewrite S1, S2, Sh, Sh'. cbn [nth]. apply sumf_ext. intros m Hm. apply sumf_ext. intros m' Hm'. apply in_seq in Hm, Hm'.
    rewrite V1, V2, V3; [reflexivity|..]; rewrite ?S1, ?S2, ?S3; cbn [in_range]; rewrite !andb_true_iff, !Nat.ltb_lt; repeat split; lia.
  Qed.
  Lemma chain_fit (a a' : t) k : dsh a = [y; p; k] -> dsh a' = [k; p'; y'] -> fit (chain a a') x x'.
  Proof.
    intros Sa Sa'. apply mps_fit_app. exists y. split; [exact Fl|]. exists p, k. split; [exact Sa|]. exists p', y'. split; [exact Sa'|exact Fr].
  Qed.
  Lemma ofit_app h1 h2 : forall a1 a2 b1 b2 u v w, ofit h1 a1 b1 u v -> ofit h2 a2 b2 v w -> ofit (h1 ++ h2) (a1 ++ a2) (b1 ++ b2) u w.
  Proof.
    induction h1 as [|A h1 IH]; intros [|s a1] a2 [|s' b1] b2 u v w H1 H2; cbn [mpo_fit app] in *; try contradiction; [subst; exact H2|].
    destruct H1 as (k & m & m' & E & E1 & E2 & H1). exists k, m, m'. split; [exact E|]. split; [exact E1|]. split; [exact E2|]. apply IH with v; assumption.
  Qed.
  Lemma chain_ofit (a a' b b' : t) k k' : dsh a = [y; p; k] -> dsh a' = [k; p'; y'] -> dsh b = [y; p; k'] -> dsh b' = [k'; p'; y'] -> ofit ops (chain a a') (chain b b') o o'.
  Proof.
    intros Sa Sa' Sb Sb'. apply ofit_app with q; [exact Ol|]. apply (@ofit_app [h; h'] hpost [a; a'] post [b; b'] post q q' o'); [|exact Or].
    exists r, p, p. rewrite Sa, Sb. split; [exact Sh|]. split; [reflexivity|]. split; [reflexivity|]. exists q', p', p'. rewrite Sa', Sb'. split; [exact Sh'|]. split; [reflexivity|]. split; reflexivity.
  Qed.
  Lemma ofit_len h1 : forall a b u v, ofit h1 a b u v -> length h1 = length a.
  Proof. induction h1 as [|A h1 IH]; intros [|s a] [|s' b] u v H; cbn [mpo_fit] in H; try contradiction; [reflexivity|]. destruct H as (? & ? & ? & _ & _ & _ & H). cbn. f_equal. eapply IH; eauto. Qed.
  Lemma pair_expect (a a' b b' : t) k k' : dsh a = [y; p; k] -> dsh a' = [k; p'; y'] -> dsh b = [y; p; k'] -> dsh b' = [k'; p'; y'] ->
    expectation (chain a a') (chain b b') ops l e = sprod sh (pair_amp b b') (apply sh M (pair_amp a a')).
  Proof.
    intros Sa Sa' Sb Sb'. destruct (@d_heff N pre post a a' b b' hpre hpost h h' l e x o x' o') as (v & E & Sv & V); [eapply ofit_len; eauto|exact Sl|exact Se|eapply chain_fit; eauto..|eapply chain_ofit; eauto|].
    rewrite HL, HR, HH in E. cbn [rbind] in E.
    destruct (@merge_ok a a' y p k p' y' Sa Sa') as (s & Es & Ss & Vs). destruct (@merge_ok b b' y p k' p' y' Sb Sb') as (w & Ew & Sw & Vw). rewrite Es, Ew in E. cbn [rbind] in E.
    destruct (@h2s_ok N Le He Re y p p' y' env_fits s Ss) as (C & EC & SC & VC). rewrite EC in E. cbn [rbind] in E.
    destruct (@tdot_sprod N y p p' y' C w SC Sw) as (z & Ez & Sz & Vz). rewrite Ez in E. injection E as ->. rewrite <- V, Vz. apply sprod_ext; [exact Vw|]. intros i Hi. rewrite VC by exact Hi. apply apply_ext. exact Vs.
  Qed.

  (** Unit vectors as pairs of sites. *)
  Definition unit_l (j : list nat) : t := mkD [y; p; 1] (fun i => if (nth 0 i 0 =? nth 0 j 0) && (nth 1 i 0 =? nth 1 j 0) then ro else rz).
  Definition unit_r (j : list nat) : t := mkD [1; p'; y'] (fun i => if (nth 1 i 0 =? nth 2 j 0) && (nth 2 i 0 =? nth 3 j 0) then ro else rz).
  Lemma unit_val i j : in_range sh i = true -> in_range sh j = true -> pair_amp (unit_l j) (unit_r j) i = if leqb i j then ro else rz.
  Proof.
    intros Hi Hj. apply in_range4 in Hi as (i0 & i1 & i2 & i3 & -> & H0 & H1 & H2 & H3). apply in_range4 in Hj as (j0 & j1 & j2 & j3 & -> & _).
    rewrite (@pair_val N _ _ 1 y') by (reflexivity || assumption). cbn [seq sumf fold_right unit_l unit_r dv nth leqb]. destruct (i0 =? j0), (i1 =? j1), (i2 =? j2), (i3 =? j3); cbn; ring.
  Qed.
  Lemma unit_element i j : in_range sh i = true -> in_range sh j = true -> sprod sh (pair_amp (unit_l i) (unit_r i)) (apply sh M (pair_amp (unit_l j) (unit_r j))) = M i j.
  Proof.
    intros Hi Hj. unfold sprod. rewrite (@sumf_single N _ _ _ i).
    - rewrite unit_val, (proj2 (leqb_eq i i) eq_refl), conj1, rmul_1_l by assumption. unfold apply. rewrite (@sumf_single N _ _ _ j).
      + rewrite unit_val, (proj2 (leqb_eq j j) eq_refl) by assumption. ring.
      + apply idxs_NoDup.
      + apply idxs_In, Hj.
      + intros m Hm D. apply idxs_In in Hm. rewrite unit_val by assumption. destruct (leqb m j) eqn:Q; [apply leqb_eq in Q; contradiction|]. ring.
    - apply idxs_NoDup.
    - apply idxs_In, Hi.
    - intros m Hm D. apply idxs_In in Hm. rewrite unit_val by assumption. destruct (leqb m i) eqn:Q; [apply leqb_eq in Q; contradiction|]. rewrite conj0. ring.
  Qed.
  Lemma chain_sizes (a a' : t) k : dsh a = [y; p; k] -> dsh a' = [k; p'; y'] -> sizes (chain a a') = sizes pre ++ [p; p'] ++ sizes post.
  Proof. intros Sa Sa'. rewrite !map_app. cbn [map app]. unfold size at 2 3. rewrite Sa, Sa'. reflexivity. Qed.
  (** A Hermitian chain of operators gives a Hermitian matrix between environments. *)
  Lemma heff_hermitian : hermitian_chain ops l e (sizes pre ++ [p; p'] ++ sizes post) -> hermitian_kernel sh M.
  Proof.
    intros HC i j Hi Hj. rewrite <- (@unit_element i j Hi Hj), <- (@unit_element j i Hj Hi).
    rewrite <- !(@pair_expect _ _ _ _ 1 1) by reflexivity. apply expect_conj with x o x' o' (sizes pre ++ [p; p'] ++ sizes post); try assumption; apply chain_sizes with 1; reflexivity.
  Qed.
  Lemma pair_energy (a a' : t) k : dsh a = [y; p; k] -> dsh a' = [k; p'; y'] -> expectation (chain a a') (chain a a') ops l e = energy sh M (pair_amp a a').
  Proof. intros Sa Sa'. apply pair_expect with k k; assumption. Qed.
End E.

(** Amplitudes outside of the sector given by the rules vanish. *)
From Verif Require Import Base Quantity QuantityProofs FlatMap SpecFlatMap FlatMapProofs Ring Index SpecIndex Dense IndexProofs BTensor SpecBTensor LegsProofs
  BTensorProofs BTensorThms SpecChain ChainProofs ChainInst SpecBcast BcastMain SpecSector.
Set Implicit Arguments.

Section P.
  Variable G : abgroup.
  Variable R : ring.
  Add Ring Rr : (ring_th R).
  Notation bt := (btensor G R).
  Notation leg := (list nat * list G)%type.

  Lemma carries_fun (l : leg) x a b : carries l x a -> carries l x b -> a = b.
  Proof.
    intros (b1 & o1 & L1 & <-) (b2 & o2 & L2 & <-). apply find_section_unique in L1, L2. congruence.
  Qed.
  Lemma carries_dual (l : leg) x a : length (snd l) = length (fst l) -> carries l x a -> carries (@bdual G l) x (qinv G a).
  Proof.
    intros HL (b & o & L & <-). exists b, o. split; [exact L|]. cbn [bdual snd].
    rewrite (nth_indep (map _ _) (qe G) (qinv G (qe G))) by (rewrite map_length, HL; apply L). apply map_nth.
  Qed.
  Lemma carries_total (l : leg) x : x < sum_list (fst l) -> exists c, carries l x c.
  Proof. intros H. eexists. exists (fst (find_section (fst l) x)), (snd (find_section (fst l) x)). split; [apply find_section_spec; exact H|reflexivity]. Qed.

  Lemma combine3 A B (l : list A) (m : list B) x y z : length l = length m -> combine l m = [x; y; z] -> l = [fst x; fst y; fst z] /\ m = [snd x; snd y; snd z].
  Proof. destruct l as [|a [|b [|c [|d l]]]], m as [|a' [|b' [|c' [|d' m]]]]; try discriminate. intros _ [= <- <- <-]. auto. Qed.

  (** One entry of a site. *)
  Lemma site_zero (A : bt) D kx ks ky x s y cx cs cy : valid A -> dense_form A D -> blegs A = [kx; ks; ky] ->
    carries kx x cx -> carries ks s cs -> carries ky y cy -> qop G cx (qop G cs cy) <> b_rule A -> dv D [x; s; y] = rz.
  Proof.
    intros HV HD HL (b1 & o1 & L1 & E1) (b2 & o2 & L2 & E2) (b3 & o3 & L3 & E3) HN. pose proof HV as (HM & _).
    apply combine3 in HL as [HL HQ]; [|rewrite (legs_length HM), (qlegs_length HM); reflexivity].
    pose proof (legs_lens HM) as NL. rewrite HL in NL. destruct L1 as (A1 & A2 & A3), L2 as (B1 & B2 & B3), L3 as (C1 & C2 & C3).
    replace [x; s; y] with (place (legs A) [b1; b2; b3] [o1; o2; o3]) by (rewrite HL; cbn [place]; congruence).
    apply Nat.ltb_lt in A1, A2, B1, B2, C1, C2.
    rewrite (proj2 HD).
    - apply unstored. intros [t Ht]. destruct (valid_assoc _ HV Ht) as [[_ HR] _]. apply HN. rewrite <- HR, HQ. cbn [pick]. rewrite E1, E2, E3.
      cbn [qprod fold_right]. rewrite qop_e_r. reflexivity.
    - rewrite <- NL. cbn [lens map in_range]. rewrite A1, B1, C1. reflexivity.
    - rewrite HL. cbn [pick in_range]. rewrite A2, B2, C2. reflexivity.
  Qed.

  Theorem sector_thm (l : list bt) : forall D x y s cs p p' a b, Forall (@valid G R) l -> Forall2 (@dense_form G R) l D ->
    mps_fit (@blegs G R) (@bdual G) l x y -> config_carries l s cs -> length (snd x) = length (fst x) -> carries x p a -> carries y p' b ->
    qop G (qprod G cs) b <> qop G a (qprod G (map (@b_rule G R) l)) -> amp D s p p' = rz.
  Proof.
    induction l as [|A l IH]; intros D x y s cs p p' a b HV HD HF (HS & HC & HI) Hx Ha Hb HN.
    - inversion HD; subst. cbn in HF. subst y. destruct s; [|discriminate]. destruct cs; [|discriminate]. cbn [amp].
      destruct (Nat.eqb_spec p p') as [->|]; [|reflexivity]. exfalso. apply HN. rewrite (carries_fun Ha Hb). cbn. rewrite qop_e_l, qop_e_r. reflexivity.
    - inversion HD as [|? DA ? D' HDA HD']; subst. inversion HV as [|? ? VA HV']; subst. destruct HF as (ks & k & HL & HF).
      destruct s as [|s0 s]; [discriminate|]. destruct cs as [|c cs]; [discriminate|]. cbn [amp].
      pose proof VA as (MA & _). pose proof HL as HL'. apply combine3 in HL'; [|rewrite (legs_length MA), (qlegs_length MA); reflexivity].
      destruct HL' as [HLe HQe].
      assert (Hk : length (snd k) = length (fst k)).
      { pose proof (legs_lens MA) as N1. pose proof (qlegs_lens MA) as N2. rewrite HLe in N1. rewrite HQe in N2. cbn in N1, N2. congruence. }
      assert (Hsz : size 2 DA = sum_list (fst k)) by (unfold size; rewrite (proj1 HDA), HLe; reflexivity).
      apply sumf_zero. intros z Hz. apply in_seq in Hz. rewrite Hsz in Hz. destruct (@carries_total k z ltac:(lia)) as (cz & Hcz).
      assert (Hc : carries ks s0 c) by (specialize (HI 0 A eq_refl); rewrite HL in HI; exact HI).
      destruct (qeqb G (qop G (qinv G a) (qop G c cz)) (b_rule A)) eqn:E.
      + rewrite (IH D' k y s cs z p' cz b); auto; [apply rmul_0_r| |].
        * split; [auto|]. split; [auto|]. intros i B HB. exact (HI (S i) B HB).
        * intros H. apply HN. apply qeqb_spec in E. cbn [map]. change (qprod G (?u :: ?v)) with (qop G u (qprod G v)). rewrite <- E.
          rewrite <- qop_assoc, H. generalize (qprod G (map (@b_rule G R) l)). intros r.
          rewrite !qop_assoc, qop_inv_r, qop_e_l. reflexivity.
      + assert (HE : qop G (qinv G a) (qop G c cz) <> b_rule A) by (intros K; apply qeqb_spec in K; congruence).
        rewrite (site_zero VA HDA HL (carries_dual Hx Ha) Hc Hcz HE). apply rmul_0_l.
  Qed.
End P.

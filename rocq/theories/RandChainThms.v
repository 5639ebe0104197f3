(** Consequences for random chains. *)
From Verif Require Import Base Quantity QuantityProofs Ring Index SpecIndex Dense IndexProofs BTensor SpecBTensor LegsProofs BTensorProofs BTensorThms BTensorThms2 SpecChain SpecSector SectorThms
  Rand SpecRand RandProofs RandChain SpecRandChain RandChainProofs.
From Coq Require Import Lia.
Set Implicit Arguments.

Section P.
  Variable G : abgroup.
  Variable R : ring.
  Variable div : R -> R -> R.
  Variable sqrt : R -> R.
  Notation bt := (btensor G R).
  Theorem random_amp (rnd : nat -> list nat -> list nat -> dense R) src bond (phys : list bt) c n out D s cs :
    (forall i k sh, dsh (rnd i k sh) = sh) -> 0 < bond -> phys <> [] -> Forall (@phys_ok G R) phys ->
    Forall (fun P : bt => b_rule P = qe G) phys -> random_bMPS div sqrt src rnd bond phys c n = Ok out ->
    Forall2 (@dense_form G R) out D -> config_carries out s cs -> qprod G cs <> c -> amp D s 0 0 = rz.
  Proof.
    intros Hr Hb Hn HP HN E HD HC Hc. destruct (random_thm div sqrt rnd Hr src c n Hb Hn HP) as [[E' _]|(out' & E' & (V & F & _ & HR & _) & _)]; [congruence|].
    rewrite E in E'. injection E' as <-. assert (C0 : carries (trivial_bond G) 0 (qe G)) by (exists 0, 0; split; [repeat split; cbn; lia|reflexivity]).
    apply (@sector_thm G R out D (trivial_bond G) (trivial_bond G) s cs 0 0 (qe G) (qe G)); auto. rewrite HR, qop_e_l, qop_e_r.
    replace (qprod G (map (@b_rule G R) phys)) with (qe G); [rewrite qop_e_r; exact Hc|].
    clear - HN. induction HN as [|P l HP HN IH]; [reflexivity|]. cbn [map qprod fold_right]. rewrite HP, qop_e_l. exact IH.
  Qed.
  (** No bond value at all. *)
  Theorem random_no_bond (rnd : nat -> list nat -> list nat -> dense R) src (phys : list bt) c n : phys <> [] -> random_bMPS div sqrt src rnd 0 phys c n = UB.
  Proof. intros H. destruct phys as [|P l]; [congruence|]. reflexivity. Qed.
  Theorem random_no_site (rnd : nat -> list nat -> list nat -> dense R) src bond n : n <> 0 -> @random_bMPS G R div sqrt src rnd bond [] (qe G) n = UB.
  Proof.
    intros Hn. unfold random_bMPS. cbn [length map].
    assert (E : exists m, rmapM (fun j => generate_random_string (fun i => src (j * 0 + i)) (@nil (list G)) (qe G) n) (seq 0 bond) = Ok m).
    { clear - Hn. generalize 0 at 2. induction bond as [|b IH]; intros a; cbn [seq rmapM]; [eauto|].
      destruct (@string_sound G (fun i => src (a * 0 + i)) [] (qe G) n) as [E|(o & E & _)]; [constructor| |].
      - exfalso. unfold generate_random_string in E. destruct (Nat.eqb_spec n 0); [contradiction|]. destruct n as [|n]; [contradiction|]. cbn in E.
        rewrite (proj2 (proj2 (@qdist2_spec G (qe G) (qe G))) eq_refl) in E. cbn in E. discriminate.
      - rewrite E. cbn [rbind]. destruct (IH (S a)) as [m ->]. cbn [rbind]. eauto. }
    destruct E as [m ->]. reflexivity.
  Qed.
End P.
(** Integers with a common step: there is a chain if the total can be reached. *)
Theorem random_exists (R : ring) div sqrt (rnd : nat -> list nat -> list nat -> dense R) src d S bond (phys : list (btensor z_group R)) c n :
  (forall i k sh, dsh (rnd i k sh) = sh) -> 0 < bond -> phys <> [] -> Forall (@phys_ok z_group R) phys ->
  (0 < d)%Z -> Forall2 (steps d) S (map (@b_cv _ _) phys) -> (reach d S <= 32767)%Z -> n <> 0 -> (exists o, config (map (@b_cv _ _) phys) c o) ->
  exists out, random_bMPS div sqrt src rnd bond phys c n = Ok out.
Proof.
  intros Hr Hb Hn HP Hd HF HB Hp Ho. destruct (random_thm div sqrt rnd Hr src c n Hb Hn HP) as [[_ [j E]]|(out & E & _)]; [exfalso|eauto].
  destruct (proj1 (@string_iff (fun i => src (j * length phys + i)) d S _ c n Hd HF HB Hp) Ho) as [o E']. congruence.
Qed.

(** What an update of two sites of block tensors that returns leaves unchanged: dimensions and selection rules, without any condition on
    the blocks that are stored. *)
From Verif Require Import Base Quantity QuantityProofs FlatMap SpecFlatMap FlatMapProofs FlatMapThms Ring Index SpecIndex IndexProofs Dense BTensor SpecBTensor LegsProofs BTensorProofs BTensorThms
  BTensorArith SpecArith ArithProofs ArithThms Tensordot SpecTensordot TensordotProofs TensordotThms Bcast SpecBcast BcastMain View Chain SpecChain ChainProofs ChainThms ChainInst
  BcastProofs BcastThms ModelsBlockProofs Num Eig2 SpecEig2 Eig2Proofs Lanczos SpecLanczos LanczosProofs BLanczos SpecBLanczos BLanczosProofs BLanczosThms.
Set Implicit Arguments.

Section P.
  Variable G : abgroup.
  Variable N : numeric.
  Variable imax : nat.
  Notation bt := (btensor G N).
  Notation d := (dense N).
  Notation tl := (@blegs G N).
  Notation dual := (@bdual G).
  Notation den := (@stored G N imax).
  Add Ring Rr : (ring_th N).
  Notation all4 := [0; 1; 2; 3].

  (** A tensor without dimensions and with the neutral rule. *)
  Definition sc0 (T : bt) (D : d) : Prop := den T D /\ tl T = [] /\ b_rule T = qe G.
  Lemma any_minus A B DA DB : den A DA -> den B DB -> tl A = tl B -> b_rule A = b_rule B -> exists C D, b_minus_ A B = Ok C /\ den C D /\ tl C = tl A /\ b_rule C = b_rule A.
  Proof.
    intros HA HB T R. pose proof HA as (VA & FA & IA). pose proof HB as (VB & FB & IB).
    pose proof (@meta_eq G N A B (proj1 VA) (proj1 VB) T R) as M. destruct (add_exact (ropp ro) VA VB M) as (C & EC & MC & VC & _). destruct (to_dense_spec VC) as (D & _ & FD).
    exists C, D. split; [exact EC|]. split; [split; [exact VC|]; split; [exact FD|]; rewrite <- (proj1 (proj2 (proj2 MC))); exact IA|]. split; [symmetry; apply (@meta_tl G N _ _ MC)|symmetry; apply MC].
  Qed.
  Ltac small := cbn; intros; repeat match goal with H : _ \/ _ |- _ => destruct H end; try contradiction; subst; lia.
  Ltac dist := repeat (constructor; [cbn; intuition congruence|]); constructor.
  Lemma any_full a b Da Db : den a Da -> den b Db -> length (tl a) = 4 -> tl b = map dual (tl a) -> b_rule b = qinv G (b_rule a) -> exists C D, tensordot imax a b all4 all4 = Ok C /\ sc0 C D.
  Proof.
    intros Ha Hb La Tb R. destruct (tl a) as [|t1 [|t2 [|t3 [|t4 [|? ?]]]]] eqn:Ta; try discriminate.
    destruct (@sim_tdot G N imax _ _ _ _ all4 all4 Ha Hb) as (X & DX & EX & FX & HX & TX & RX & BX); try (rewrite ?Ta, ?Tb; solve [small | dist | reflexivity | cbn; rewrite ?bdual_dual; reflexivity]).
    exists X, DX. split; [exact EX|]. split; [exact HX|]. rewrite Ta, Tb in TX. split; [exact TX|]. rewrite RX, R. apply qop_inv_r.
  Qed.
  Lemma no_block (T : bt) D : den T D -> tl T = [] -> ~ has T [] -> b_blocks T = [].
  Proof.
    intros (V & _) E H. destruct (tl_nil N (proj1 V) E) as (R0 & L0 & _). assert (S0 : b_sbd T = []) by (rewrite <- (legs_lens (proj1 V)), L0; reflexivity).
    destruct (b_blocks T) as [|(k, t) r] eqn:EB; [reflexivity|]. exfalso. apply H. assert (HK : has T k) by (apply (@in_assoc G N T k t); [apply V|rewrite EB; left; reflexivity]).
    pose proof (has_range N V HK) as HR. rewrite S0 in HR. destruct k; [exact HK|discriminate].
  Qed.
  Lemma has_dec (T : bt) k : has T k \/ ~ has T k.
  Proof. unfold has. destruct (assoc leqb k (b_blocks T)); [left; discriminate|right; intros H; apply H; reflexivity]. Qed.
  Lemma x_of_sc0 T D : sc0 T D -> exists v, x_of T = Ok (qe G, v).
  Proof.
    intros (H & E & R). destruct (has_dec T []) as [P|P].
    - eexists. apply (x_of_sc (Logic.conj H (Logic.conj E (Logic.conj R P)))).
    - unfold x_of. rewrite (no_block H E P), R. eauto.
  Qed.
  Lemma x_add_fst f (a b c : xt (G := G) (N := N)) : x_add f a b = Ok c -> fst c = fst a.
  Proof. unfold x_add. destruct (negb _); [discriminate|]. intros [= <-]. reflexivity. Qed.
  Lemma of_x_sc0 (x : xt (G := G) (N := N)) T : fst x = qe G -> of_x x = Ok T -> exists D, sc0 T D.
  Proof.
    destruct x as (r, [v|]); cbn [fst snd of_x]; intros ->.
    - unfold of_x. cbn [snd fst]. destruct v as [v| |]; try discriminate. intros [= <-]. exists (mkD [] (fun _ => v)). destruct (@one_sc G N imax v) as (S1 & S2 & S3 & _). split; [exact S1|]. auto.
    - unfold of_x. cbn [snd fst]. intros [= <-]. exists (mkD [] (fun _ => rz)). split; [|split; reflexivity]. split; [split; [split; [reflexivity|split; reflexivity]|]; split; [intros k t []|constructor]|]. split; [|intros s []].
      split; [reflexivity|]. intros k o Hk Ho. reflexivity.
  Qed.
  Lemma x_eig_fst (u v w : option (flt N)) E o n : x_eig (qe G, u) (qe G, v) (qe G, w) = Ok (E, o, n) -> fst E = qe G /\ fst o = qe G /\ fst n = qe G.
  Proof.
    unfold x_eig. destruct (minus _ _) as [dd| |] eqn:E1; cbn [rbind]; try discriminate. destruct (plus (x_map _ dd) _) as [c| |] eqn:E2; cbn [rbind]; try discriminate. destruct (plus (qe G, u) _) as [s| |] eqn:E3; cbn [rbind]; try discriminate.
    destruct (minus s _) as [e| |] eqn:E4; cbn [rbind]; try discriminate. destruct (minus (x_map _ e) _) as [delt| |] eqn:E5; cbn [rbind]; try discriminate. destruct (plus (x_map f_sqrt (x_zip _ _ _)) _) as [oe| |] eqn:E6; cbn [rbind]; try discriminate.
    apply x_add_fst in E1, E2, E3, E4, E5, E6. cbn [fst x_map x_zip] in *. rewrite E1 in E2. rewrite E3 in E4. rewrite E4 in E5.
    set (zo := orb _ _). destruct (x_check (if zo then x_like (x_map f_sqrt _) _ else _)) as [[]| |]; cbn [rbind]; try discriminate. destruct (x_check _) as [[]| |]; cbn [rbind]; try discriminate. intros [= <- <- <-].
    split; [cbn; exact E4|]. split; destruct zo; cbn; rewrite ?E2, ?E4, ?E5, ?qop_e_l; reflexivity.
  Qed.
  Lemma any_eig a0 a1 b D0 D1 Db E o n : sc0 a0 D0 -> sc0 a1 D1 -> sc0 b Db -> b_eig a0 a1 b = Ok (E, o, n) -> exists DE Do Dn, sc0 E DE /\ sc0 o Do /\ sc0 n Dn.
  Proof.
    intros H0 H1 Hb. destruct (x_of_sc0 H0) as (u & E0), (x_of_sc0 H1) as (v & E1), (x_of_sc0 Hb) as (w & E2). unfold b_eig. rewrite E0, E1, E2. cbn [rbind].
    destruct (x_eig _ _ _) as [((E', o'), n')| |] eqn:EX; cbn [rbind]; try discriminate. apply x_eig_fst in EX as (F1 & F2 & F3).
    destruct (of_x E') as [TE| |] eqn:OE; cbn [rbind]; try discriminate. destruct (of_x o') as [To| |] eqn:OO; cbn [rbind]; try discriminate. destruct (of_x n') as [Tn| |] eqn:ON; cbn [rbind]; try discriminate. intros [= <- <- <-].
    destruct (of_x_sc0 E' F1 OE) as (DE & SE), (of_x_sc0 o' F2 OO) as (Do & SO), (of_x_sc0 n' F3 ON) as (Dn & SN). eauto 7.
  Qed.
  Lemma large_has eps (b : bt) Db : sc0 b Db -> b_large eps b = Ok true -> has b [].
  Proof.
    intros (H & E & R) L. destruct (has_dec b []) as [P|P]; [exact P|exfalso]. revert L. unfold b_large, item, bt_elementwise. cbn [map_blocks with_blocks b_blocks]. rewrite (no_block H E P). cbn [map rbind].
    assert (Q : reqb (rz : N) rz = true) by (apply reqb_spec; reflexivity). rewrite Q. discriminate.
  Qed.

  Section Env.
    Variables (L H E : bt) (DL DH DE : d) (x p p' x' o o' : list nat * list G).
    Hypothesis (HL : den L DL) (HH : den H DH) (HE : den E DE).
    Hypothesis (TL : tl L = [x; o; dual x]) (TH : tl H = [dual o; p; p'; o'; dual p; dual p']) (TE : tl E = [dual x'; dual o'; x']).
    Hypothesis CV : conserving L H E.
    Notation ts := [dual x; p; p'; x'].
    Variables (eps : N) (s : bt) (Ds : d).
    Hypothesis (Hs : den s Ds) (Ts : tl s = ts).
    Lemma any_update Et U : b_update imax eps s H L E = Ok (Et, U) -> exists DEt DU, sc0 Et DEt /\ den U DU /\ tl U = ts /\ b_rule U = b_rule s.
    Proof.
      destruct (@sim_h2s G N imax L H E DL DH DE x p p' x' o o' HL HH HE TL TH TE CV s Ds Hs Ts) as (P & DP & EP & _ & HP & TP & RP & _). destruct (sim_conj N Hs) as (Hcs & Tcs & Rcs & _).
      destruct (@any_full P (conj s) DP (t_conj Ds) HP Hcs) as (a0 & D0 & E0 & S0); [rewrite TP; reflexivity|rewrite Tcs, Ts, TP; reflexivity|rewrite Rcs, RP; reflexivity|].
      pose proof S0 as (H0 & T0 & R0).
      destruct (@sim_scalar_r G N imax rmul s a0 Ds D0 Hs H0 T0 R0) as (sa & Dsa & Esa & _ & Hsa & Tsa & Rsa & _); [intros; ring|right; intros; ring|].
      destruct (@any_minus P sa DP Dsa HP Hsa) as (psi & Dp & Epsi & Hpsi & Tpsi & Rpsi); [rewrite TP, Tsa, Ts; reflexivity|rewrite RP, Rsa; reflexivity|]. rewrite TP in Tpsi. rewrite RP in Rpsi.
      destruct (sim_conj N Hpsi) as (Hcp & Tcp & Rcp & _).
      destruct (@any_full psi (conj psi) Dp (t_conj Dp) Hpsi Hcp) as (bb & Dbb & Ebb & Sbb); [rewrite Tpsi; reflexivity|exact Tcp|exact Rcp|].
      assert (Sb : sc0 (bt_elementwise (n_sqrt N) bb) (d_map (n_sqrt N) Dbb)).
      { destruct Sbb as (Q1 & Q2 & Q3). destruct (@sim_map G N imax (n_sqrt N) bb Dbb Q1 (sqrt_0 N)) as (M1 & M2 & M3). split; [exact M1|]. split; [rewrite M2; exact Q2|rewrite M3; exact Q3]. }
      set (b := bt_elementwise (n_sqrt N) bb) in *. set (Db := d_map (n_sqrt N) Dbb) in *.
      unfold b_update, two_sites_update, one_step_lanczos. rewrite EP. cbn [rbind]. rewrite E0. cbn [rbind]. unfold b_mul. rewrite Esa. cbn [rbind]. rewrite Epsi. cbn [rbind]. rewrite Ebb. cbn [rbind]. fold b.
      destruct (b_large eps b) as [r| |] eqn:EL; cbn [rbind]; try discriminate.
      assert (Q : exists psi2 Dp2, (if r then b_div_ (ndiv N) psi b else Ok psi) = Ok psi2 /\ den psi2 Dp2 /\ tl psi2 = ts /\ b_rule psi2 = b_rule s).
      { destruct r; [|exists psi, Dp; auto]. pose proof (@large_has eps b Db Sb EL) as Pb. destruct Sb as (Hb & Tb & Rb).
        destruct (@sim_div G N imax psi b Dp Db Hpsi Hb Tb Rb Pb) as (psi2 & Dp2 & E2 & _ & H2 & T2 & R2 & _). exists psi2, Dp2. rewrite T2, R2. auto. }
      destruct Q as (psi2 & Dp2 & E2 & H2 & T2 & R2). rewrite E2. cbn [rbind].
      destruct (@sim_h2s G N imax L H E DL DH DE x p p' x' o o' HL HH HE TL TH TE CV psi2 Dp2 H2 T2) as (hp & Dhp & Ehp & _ & Hhp & Thp & Rhp & _). rewrite Ehp. cbn [rbind].
      destruct (sim_conj N H2) as (Hc2 & Tc2 & Rc2 & _).
      destruct (@any_full (conj psi2) hp (t_conj Dp2) Dhp Hc2 Hhp) as (a1 & D1 & E1 & S1); [rewrite Tc2, map_length, T2; reflexivity|rewrite Tc2, dual_tl, T2, Thp; reflexivity|rewrite Rc2, qinv_inv, Rhp; reflexivity|].
      rewrite E1. cbn [rbind]. destruct (b_eig a0 a1 b) as [((Ee, oc), nc)| |] eqn:EE; cbn [rbind]; try discriminate. destruct (any_eig S0 S1 Sb EE) as (DEe & Doc & Dnc & SE & (Ho & To & Ro) & (Hn & Tn & Rn)).
      destruct (@sim_scalar_l G N imax rmul s oc Ds Doc Hs Ho To Ro) as (os & Dos & Eos & _ & Hos & Tos & Ros & _); [rewrite Ts; cbn; lia|intros; ring|intros; ring|].
      destruct (@sim_scalar_l G N imax rmul psi2 nc Dp2 Dnc H2 Hn Tn Rn) as (np & Dnp & Enp & _ & Hnp & Tnp & Rnp & _); [rewrite T2; cbn; lia|intros; ring|intros; ring|].
      rewrite Eos. cbn [rbind]. rewrite Enp. cbn [rbind].
      destruct (@sim_plus G N imax os np Dos Dnp Hos Hnp) as (U' & DU & EU & _ & HU & TU & RU & _); [rewrite Tos, Tnp, Ts, T2; reflexivity|rewrite Ros, Rnp; auto|].
      rewrite EU. cbn [rbind]. intros [= <- <-]. exists DEe, DU. split; [exact SE|]. split; [exact HU|]. split; [rewrite TU, Tos; exact Ts|rewrite RU, Ros; reflexivity].
    Qed.
  End Env.
End P.

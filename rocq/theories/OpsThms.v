(** Proofs about the Pauli matrices. *)
From Verif Require Import Base Ring SpecIndex Dense BTensor Quantity SpecBTensor BTensorProofs SpecChain SpecSector SpecModelsBlock BTensorThms Models OpsBlock SpecModels ModelsThms SpecOps OpsProofs.
From Coq Require Import Lia.
Set Implicit Arguments.

Section P.
  Context {R : ring}.
  Add Ring Rr : (ring_th R).
  Local Ltac cases := intros [|[|p]] [|[|q]] Hp Hq; try lia; cbv -[radd rmul ropp rz ro rconj rT]; rewrite ?rconj_0, ?rconj_1; ring.
  Lemma pauli_algebra (sx isy sz lo id : dense R) : pauli (R := R) = (sx, isy, sz, lo, id) ->
    let X := of_dense sx in let Y := of_dense isy in let Z := of_dense sz in let L := of_dense lo in let I := of_dense id in
    meq 2 I (@delta R) /\ meq 2 (mmul 2 X X) I /\ meq 2 (mmul 2 Y Y) (mscale (ropp ro) I) /\ meq 2 (mmul 2 Z Z) I /\
    meq 2 (mmul 2 X Y) (mscale (ropp ro) Z) /\ meq 2 (mmul 2 Y X) Z /\ meq 2 (mmul 2 Y Z) (mscale (ropp ro) X) /\ meq 2 (mmul 2 Z Y) X /\ meq 2 (mmul 2 Z X) Y /\ meq 2 (mmul 2 X Z) (mscale (ropp ro) Y) /\
    meq 2 (madd X Y) (mscale (radd ro ro) L).
  Proof. intros H. injection H as <- <- <- <- <-. cbv zeta. repeat split; cases. Qed.
  Lemma lo_up (sx isy sz lo id : dense R) v p : pauli (R := R) = (sx, isy, sz, lo, id) -> p < 2 ->
    mapply 2 (of_dense lo) v p = (if p =? 0 then v 1 else rz) /\ mapply 2 (of_dense sz) v p = (if p =? 0 then v 0 else ropp (v 1)).
  Proof. intros H. injection H as <- <- <- <- <-. destruct p as [|[|p]]; intros Hp; try lia; split; cbv -[radd rmul ropp rz ro rconj rT]; ring. Qed.
  Lemma not_lowers (sx isy sz lo id : dense R) : (ro : R) <> rz -> pauli (R := R) = (sx, isy, sz, lo, id) -> ~ lowers (of_dense sz) (of_dense lo).
  Proof.
    intros N H [_ L]. specialize (L (fun p => if p =? 1 then ro else rz)). apply N. 
    rewrite <- (L) with (p := 0); [|split|lia].
    - rewrite (proj1 (@lo_up _ _ _ _ _ _ 0 H ltac:(lia))). reflexivity.
    - exists 1. split; [lia|exact N].
    - intros p Hp. rewrite (proj2 (@lo_up _ _ _ _ _ _ p H Hp)). destruct p as [|[|p]]; try lia; cbv [Nat.eqb]; ring.
  Qed.
  Lemma transpose_lowers (sx isy sz lo id : dense R) : (forall x : R, radd x x = rz -> x = rz) -> pauli (R := R) = (sx, isy, sz, lo, id) ->
    lowers (of_dense sz) (fun p q => of_dense lo q p) /\ meq 2 (madj (of_dense lo)) (fun p q => of_dense lo q p).
  Proof.
    intros N H. pose proof H as HP. injection HP as _ _ _ E _.
    assert (T : forall v p, p < 2 -> mapply 2 (fun p q => of_dense lo q p) v p = (if p =? 0 then rz else v 0)).
    { intros v p Hp. rewrite <- E. destruct p as [|[|p]]; try lia; cbv -[radd rmul ropp rz ro rconj rT]; ring. }
    assert (S : forall v p, p < 2 -> mapply 2 (of_dense sz) v p = (if p =? 0 then v 0 else ropp (v 1))) by (intros v p Hp; apply (lo_up v H Hp)).
    split; [split|].
    - intros v [(p & Hp & Np) Hv].
      assert (V1 : v 1 = rz). { apply N. pose proof (Hv 1 ltac:(lia)) as V. rewrite S in V by lia. cbv [Nat.eqb] in V. replace (v 1) with (rmul ro (v 1)) at 1 by ring. rewrite <- V. ring. }
      assert (V0 : v 0 <> rz) by (destruct p as [|[|p]]; try lia; auto). split.
      + exists 1. split; [lia|]. rewrite T by lia. exact V0.
      + intros q Hq. rewrite S by exact Hq. destruct q as [|[|q]]; try lia; cbv [Nat.eqb]; rewrite !T by lia; cbv [Nat.eqb]; ring.
    - intros v [_ Hv] p Hp. rewrite T by exact Hp. destruct p as [|[|p]]; try lia; [reflexivity|]. cbv [Nat.eqb]. apply N.
      pose proof (Hv 0 ltac:(lia)) as V. rewrite S in V by lia. cbv [Nat.eqb] in V. rewrite V at 1. ring.
    - rewrite <- E. cases.
  Qed.
End P.

Lemma pauli_order (G : abgroup) (R : ring) big signif x (T : btensor G R) p0 p1 sx isy sz lo id : (forall x, big x = false <-> x = rz) -> (ro : R) <> rz ->
  visible signif ro -> visible signif (ropp ro) -> op_shape x T -> sum_list (fst x) = 2 -> carries x 0 p0 -> carries x 1 p1 -> pauli (R := R) = (sx, isy, sz, lo, id) ->
  exists A B C, b_pauli big signif T = Ok (A, B, C) /\ ~ dense_form A lo /\ dense_form A sz /\ dense_form B lo.
Proof.
  intros H1 H2 H3 H4 H5 H6 H7 H8 HP. destruct (@pauli_block G R big signif H1 H2 H3 H4 x T p0 p1 sx isy sz lo id H5 H6 H7 H8 HP) as (A & B & C & E & (VA & LA & DA & RA) & (VB & LB & DB & RB) & _).
  exists A, B, C. split; [exact E|]. split; [|split; assumption]. intros D. apply (oppopp_nz H2). destruct (dense_form_unique (proj1 VA) DA D) as [_ U].
  injection HP as E1 E2 E3 E4 E5. specialize (U [0; 0]). rewrite <- E3, <- E4 in U. apply U. reflexivity.
Qed.

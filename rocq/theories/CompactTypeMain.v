(** The matrices hold the elements of the blocks. *)
From Verif Require Import Base Quantity FlatMap Ring Index SpecIndex Dense BTensor SpecBTensor BTensorArith Tensordot SpecReshape BSvd SvdPieces SvdProofs SvdThms CompactType SpecCompactType CompactTypeProofs.
Set Implicit Arguments.

Section Elements.
  Context {G : abgroup} {R : ring}.
  Notation slice := (nat * (nat * nat))%type.
  Lemma forall2_right {A B} (P : A -> B -> Prop) l l' : Forall2 P l l' -> forall y, In y l' -> exists x, In x l /\ P x y.
  Proof. induction 1 as [|x y l l' H _ IH]; intros z; [intros []|]. intros [<-|Hz]; [exists x; split; [left|]; auto|]. destruct (IH z Hz) as (w & Hw & Pw). exists w. split; [right|]; auto. Qed.
  Lemma forall2_left {A B} (P : A -> B -> Prop) l l' : Forall2 P l l' -> forall x, In x l -> exists y, In y l' /\ P x y.
  Proof. induction 1 as [|x y l l' H _ IH]; intros z; [intros []|]. intros [<-|Hz]; [exists y; split; [left|]; auto|]. destruct (IH z Hz) as (w & Hw & Pw). exists w. split; [right|]; auto. Qed.
  Theorem typed_elements (store : R -> R) (T : btensor G R) lr lc : valid T -> legs T = [lr; lc] ->
    (forall idx d i, In (idx, d) (b_blocks T) -> in_range (dsh d) i = true -> store (dv d i) = dv d i) ->
    exists ps, compact_typed store T = Ok ps /\
      (forall i j d, In ([i; j], d) (b_blocks T) -> exists M rows cols o o', In (M, rows, cols) ps /\ In (i, (o, nth i lr 0)) rows /\ In (j, (o', nth j lc 0)) cols) /\
      forall M rows cols i o s j o' s' x y, In (M, rows, cols) ps -> In (i, (o, s)) rows -> In (j, (o', s')) cols -> x < s -> y < s' -> dv M [o + x; o' + y] = bentry T [i; j] [x; y].
  Proof.
    intros V HL K. assert (HQ : exists qr qc, qlegs T = [qr; qc]).
    { pose proof (T_rank V HL) as HR. assert (LQ : length (qlegs T) = 2) by (destruct V as ((M1 & _) & _); rewrite <- HR, <- M1; unfold qlegs; clear; generalize (b_cv T); induction (b_sbd T) as [|n l IH]; intros c; cbn; [reflexivity|rewrite IH; reflexivity]).
      destruct (qlegs T) as [|qr [|qc [|? ?]]]; try discriminate. eauto. }
    destruct HQ as (qr & qc & HQ). destruct (compact_ok V HL HQ) as (qs & ks & EQ & _ & PQ & SQ).
    pose proof (@typed_alike G R store T (fun e He i Hi => K (fst e) (snd e) i (eq_ind _ (fun x => In x _) He _ (surjective_pairing e)) Hi)) as A. rewrite EQ in A.
    destruct (compact_typed store T) as [ps| |]; cbn in A; try contradiction. exists ps. split; [reflexivity|].
    split.
    - intros i j d Hd. assert (Sd : stored T [i; j]) by (exists d; exact Hd). destruct (forall2_left PQ _ (SQ i j Sd)) as (((M & rows) & cols) & HI & (m & n & _ & TR & TC & KR & KC & _)).
      destruct (forall2_right A _ HI) as (((M' & rows') & cols') & HI' & (_ & E1 & E2)). cbn in E1, E2. subst rows' cols'. exists M', rows, cols.
      assert (Ir : In i (map fst rows)) by (apply KR; exists j; auto). assert (Ic : In j (map fst cols)) by (apply KC; exists i; auto).
      apply in_map_iff in Ir as ((i' & (o & s)) & Qi & Ir). apply in_map_iff in Ic as ((j' & (o' & s')) & Qj & Ic). cbn in Qi, Qj. subst i' j'. exists o, o'.
      destruct (tiling_len _ _ _ TR Ir) as [-> _]. destruct (tiling_len _ _ _ TC Ic) as [-> _]. auto.
    - intros M rows cols i o s j o' s' x y HI Hr Hc Hx Hy. destruct (forall2_left A _ HI) as (((M' & rows') & cols') & HI' & ((_ & VM) & E1 & E2)). cbn in VM, E1, E2. subst rows' cols'.
      destruct (forall2_right PQ _ HI') as (k & _ & (m & n & _ & _ & _ & _ & _ & _ & HV)). rewrite VM. apply (HV i o s j o' s' x y); assumption.
  Qed.
End Elements.

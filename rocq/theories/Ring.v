(** Scalars: a commutative ring with conjugation, standing for the torch scalar types without rounding.
    Finite sums over lists. *)
From Verif Require Import Base.
From Coq Require Export Ring_theory Ring.
From Coq Require Import Permutation.
Set Implicit Arguments.

Record ring : Type := {
  rT :> Type;
  rz : rT; ro : rT;
  radd : rT -> rT -> rT;
  rmul : rT -> rT -> rT;
  ropp : rT -> rT;
  rconj : rT -> rT;
  reqb : rT -> rT -> bool;
  radd_0_l : forall x, radd rz x = x;
  radd_comm : forall x y, radd x y = radd y x;
  radd_assoc : forall x y z, radd x (radd y z) = radd (radd x y) z;
  rmul_1_l : forall x, rmul ro x = x;
  rmul_comm : forall x y, rmul x y = rmul y x;
  rmul_assoc : forall x y z, rmul x (rmul y z) = rmul (rmul x y) z;
  rdistr : forall x y z, rmul (radd x y) z = radd (rmul x z) (rmul y z);
  radd_opp : forall x, radd x (ropp x) = rz;
  rconj_add : forall x y, rconj (radd x y) = radd (rconj x) (rconj y);
  rconj_mul : forall x y, rconj (rmul x y) = rmul (rconj x) (rconj y);
  rconj_conj : forall x, rconj (rconj x) = x;
  reqb_spec : forall x y, reqb x y = true <-> x = y;
}.
Arguments rz {r}. Arguments ro {r}. Arguments radd {r} _ _. Arguments rmul {r} _ _.
Arguments ropp {r} _. Arguments rconj {r} _. Arguments reqb {r} _ _.
Declare Scope R_scope.
Delimit Scope R_scope with R.
Notation "a + b" := (radd a b) : R_scope.
Notation "a * b" := (rmul a b) : R_scope.
Notation "- a" := (ropp a) : R_scope.

Definition rsub {R : ring} (a b : R) : R := (a + (- b))%R.
Lemma ring_th (R : ring) : ring_theory (@rz R) ro radd rmul rsub ropp eq.
Proof.
  constructor; intros.
  - apply radd_0_l.
  - apply radd_comm.
  - apply radd_assoc.
  - apply rmul_1_l.
  - apply rmul_comm.
  - apply rmul_assoc.
  - apply rdistr.
  - reflexivity.
  - apply radd_opp.
Qed.

Section Sums.
  Variable R : ring.
  Add Ring Rring : (ring_th R).
  Local Open Scope R_scope.

  Lemma rmul_0_l (x : R) : rz * x = rz. Proof. ring. Qed.
  Lemma rmul_0_r (x : R) : x * rz = rz. Proof. ring. Qed.
  Lemma radd_0_r (x : R) : x + rz = x. Proof. ring. Qed.
  Lemma rmul_1_r (x : R) : x * ro = x. Proof. ring. Qed.
  Lemma ropp_0 : - (@rz R) = rz. Proof. ring. Qed.
  Lemma rconj_0 : rconj (@rz R) = rz.
  Proof.
    assert (H : rconj (@rz R) + rconj rz = rconj rz + rz).
    { rewrite <- rconj_add, radd_0_l. ring. }
    assert (H2 : forall a b c : R, a + b = a + c -> b = c).
    { intros a b c E. transitivity ((- a + a) + b); [ring|]. transitivity (-a + (a + b)); [ring|].
      rewrite E. ring. }
    apply H2 in H. exact H.
  Qed.

  Definition sumf {A} (f : A -> R) (l : list A) : R := fold_right (fun a s => f a + s) rz l.

  Lemma sumf_nil A (f : A -> R) : sumf f [] = rz. Proof. reflexivity. Qed.
  Lemma sumf_cons A (f : A -> R) a l : sumf f (a :: l) = f a + sumf f l. Proof. reflexivity. Qed.
  Lemma sumf_app A (f : A -> R) l m : sumf f (l ++ m) = sumf f l + sumf f m.
  Proof. induction l as [|a l IH]; cbn [app]; [rewrite sumf_nil; ring|]. rewrite !sumf_cons, IH. ring. Qed.
  Lemma sumf_ext A (f g : A -> R) l : (forall a, In a l -> f a = g a) -> sumf f l = sumf g l.
  Proof.
    induction l as [|a l IH]; intros H; [reflexivity|]. rewrite !sumf_cons, (H a), IH; auto; [|left; auto].
    intros; apply H; right; auto.
  Qed.
  Lemma sumf_zero A (f : A -> R) l : (forall a, In a l -> f a = rz) -> sumf f l = rz.
  Proof.
    induction l as [|a l IH]; intros H; [reflexivity|]. rewrite sumf_cons, (H a), IH; auto; [ring| |left; auto].
    intros; apply H; right; auto.
  Qed.
  Lemma sumf_map A B (g : A -> B) (f : B -> R) l : sumf f (map g l) = sumf (fun a => f (g a)) l.
  Proof. induction l as [|a l IH]; [reflexivity|]. cbn [map]. rewrite !sumf_cons, IH. reflexivity. Qed.
  Lemma sumf_flat_map A B (g : A -> list B) (f : B -> R) l :
    sumf f (flat_map g l) = sumf (fun a => sumf f (g a)) l.
  Proof. induction l as [|a l IH]; [reflexivity|]. cbn [flat_map]. rewrite sumf_app, sumf_cons, IH. reflexivity. Qed.
  Lemma sumf_add A (f g : A -> R) l : sumf (fun a => f a + g a) l = sumf f l + sumf g l.
  Proof. induction l as [|a l IH]; [rewrite !sumf_nil; ring|]. rewrite !sumf_cons, IH. ring. Qed.
  Lemma sumf_mul_l A (f : A -> R) c l : sumf (fun a => c * f a) l = c * sumf f l.
  Proof. induction l as [|a l IH]; [rewrite !sumf_nil; ring|]. rewrite !sumf_cons, IH. ring. Qed.
  Lemma sumf_mul_r A (f : A -> R) c l : sumf (fun a => f a * c) l = sumf f l * c.
  Proof. induction l as [|a l IH]; [rewrite !sumf_nil; ring|]. rewrite !sumf_cons, IH. ring. Qed.
  Lemma sumf_opp A (f : A -> R) l : sumf (fun a => - f a) l = - sumf f l.
  Proof. induction l as [|a l IH]; [rewrite !sumf_nil; ring|]. rewrite !sumf_cons, IH. ring. Qed.
  Lemma sumf_conj A (f : A -> R) l : sumf (fun a => rconj (f a)) l = rconj (sumf f l).
  Proof.
    induction l as [|a l IH]; [symmetry; apply rconj_0|]. rewrite !sumf_cons, IH, rconj_add. reflexivity.
  Qed.
  Lemma sumf_swap A B (f : A -> B -> R) l m :
    sumf (fun a => sumf (f a) m) l = sumf (fun b => sumf (fun a => f a b) l) m.
  Proof.
    induction l as [|a l IH].
    - symmetry. apply sumf_zero. reflexivity.
    - rewrite sumf_cons, IH, <- sumf_add. reflexivity.
  Qed.
  Lemma sumf_perm A (f : A -> R) l m : Permutation l m -> sumf f l = sumf f m.
  Proof.
    induction 1 as [|x l m H IH|x y l|l m n H1 IH1 H2 IH2]; [reflexivity| | |congruence].
    - rewrite !sumf_cons, IH. reflexivity.
    - rewrite !sumf_cons. ring.
  Qed.
  Lemma sumf_filter A (f : A -> R) (p : A -> bool) l :
    (forall a, In a l -> p a = false -> f a = rz) -> sumf f (filter p l) = sumf f l.
  Proof.
    induction l as [|a l IH]; intros H; [reflexivity|]. cbn [filter]. rewrite sumf_cons.
    destruct (p a) eqn:E.
    - rewrite sumf_cons, IH; [reflexivity|]. intros; apply H; auto; right; auto.
    - rewrite (H a) by (auto; left; auto). rewrite IH; [ring|]. intros; apply H; auto; right; auto.
  Qed.
  (** A sum with a single non-zero term. *)
  Lemma sumf_single A (f : A -> R) l x : NoDup l -> In x l -> (forall a, In a l -> a <> x -> f a = rz) ->
    sumf f l = f x.
  Proof.
    induction l as [|a l IH]; intros Hn Hi Hz; [destruct Hi|]. inversion Hn as [|? ? H1 H2]; subst.
    rewrite sumf_cons. destruct Hi as [->|Hi].
    - rewrite sumf_zero; [ring|]. intros b Hb. apply Hz; [right; assumption|]. intros ->; contradiction.
    - rewrite (Hz a); [|left; auto|intros ->; contradiction]. rewrite IH; auto; [ring|].
      intros; apply Hz; auto; right; auto.
  Qed.
  Lemma sumf_prod A B (f : A -> R) (g : B -> R) l m :
    sumf f l * sumf g m = sumf (fun a => sumf (fun b => f a * g b) m) l.
  Proof.
    rewrite <- sumf_mul_r. apply sumf_ext. intros a _. rewrite <- sumf_mul_l. reflexivity.
  Qed.
End Sums.

(** Two concrete scalar types: integers, and Gaussian integers with complex conjugation. *)
Definition ring_Z : ring.
Proof.
  refine {| rT := Z; rz := 0%Z; ro := 1%Z; radd := Z.add; rmul := Z.mul; ropp := Z.opp; rconj := fun x => x;
            reqb := Z.eqb |}; intros; try ring; auto using Z.eqb_eq.
Defined.

Definition ring_Zi : ring.
Proof.
  refine {| rT := (Z * Z)%type; rz := (0, 0)%Z; ro := (1, 0)%Z;
            radd := fun a b => (fst a + fst b, snd a + snd b)%Z;
            rmul := fun a b => (fst a * fst b - snd a * snd b, fst a * snd b + snd a * fst b)%Z;
            ropp := fun a => (- fst a, - snd a)%Z;
            rconj := fun a => (fst a, - snd a)%Z;
            reqb := fun a b => (Z.eqb (fst a) (fst b) && Z.eqb (snd a) (snd b))%bool |};
  try (intros; repeat match goal with x : (Z * Z)%type |- _ => destruct x end; cbn [fst snd]; f_equal; ring).
  intros [a b] [c d]; cbn. rewrite andb_true_iff, !Z.eqb_eq. split; [intros [-> ->]; reflexivity|intros [= -> ->]; auto].
Defined.

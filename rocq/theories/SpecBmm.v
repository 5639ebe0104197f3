(** Batched matrix products of dense tensors, and which block tensors can be multiplied; independent of the functions of the
    code. *)
From Verif Require Import Base Quantity QuantityProofs Ring SpecIndex Dense BTensor SpecBTensor.
Set Implicit Arguments.

(** The last two dimensions are those of matrices, all others are equal in both factors and in the product. *)
Definition d_bmm {R : ring} (A B : dense R) : dense R :=
  let n := length (dsh A) in
  mkD (firstn (n - 1) (dsh A) ++ [nth (n - 1) (dsh B) 0])
      (fun i => sumf R (fun s => rmul (dv A (firstn (n - 1) i ++ [s])) (dv B (firstn (n - 2) i ++ [s; nth (n - 1) i 0])))
                  (seq 0 (nth (n - 1) (dsh A) 0))).

Section Spec.
  Variable G : abgroup.
  Variable R : ring.
  Implicit Types A B C : btensor G R.
  (** Equal batch dimensions; columns of the first and rows of the second with sections of equal sizes and inverse quantities.
      Nothing is asked of the quantities of the batch dimensions. *)
  Definition bmm_ok A B : Prop :=
    let n := b_rank A in
    b_rank B = n /\ 2 <= n /\ firstn (n - 2) (legs A) = firstn (n - 2) (legs B) /\
    nth (n - 1) (legs A) [] = nth (n - 2) (legs B) [] /\
    forall s, s < length (nth (n - 1) (legs A) []) ->
      qop G (nth s (nth (n - 1) (qlegs A) []) (qe G)) (nth s (nth (n - 2) (qlegs B) []) (qe G)) = qe G.
  (** Structure of the product: the quantities of the batch dimensions are multiplied. *)
  Definition bmm_meta A B C : Prop :=
    let n := b_rank A in
    b_rule C = qop G (b_rule A) (b_rule B) /\
    legs C = firstn (n - 1) (legs A) ++ [nth (n - 1) (legs B) []] /\
    qlegs C = map2 (map2 (qop G)) (firstn (n - 2) (qlegs A)) (firstn (n - 2) (qlegs B)) ++
              [nth (n - 2) (qlegs A) []; nth (n - 1) (qlegs B) []].
End Spec.

(** Model of what the functor [dmrg_2sites_update] computes for one pair of sites of block tensors, sources/dmrg.cpp:185-201. Model
    only: the algorithm is that of SiteUpdate.v. *)
From Verif Require Import Base Quantity Ring Index SpecIndex Dense BTensor BTensorArith Bcast Tensordot Chain Num Truncate BSvd BTrunc MoveOc Eig2 Lanczos BLanczos SiteUpdate.
Set Implicit Arguments.

Section Blocks.
  Context {G : abgroup} {N : numeric} {W : weights}.
  Variable imax : nat.
  (** [eps] stands for 1e-15, [dsvd] for [torch::svd] of a matrix; [gtb], [lower], [wt], [thr] as in BTrunc.v: the order of the
      singular values, a value times one minus the rounding of the type, the weight of a value and the cutoff. *)
  Variable eps : N.
  Variable gtb : N -> N -> bool.
  Variable lower : N -> N.
  Variable wt : N -> W.
  Variable dsvd : dense N -> dense N * dense N * dense N.
  Variable thr : W.
  Variables mn mx : Z.
  Notation bt := (btensor G N).

  (** sources/dmrg.cpp:188 [d /= sqrt(sum(d.pow(2)))]: sources/btensor.cpp:1499-1509 [sum], 1511-1521 [sqrt], 1552-1562 [pow],
      1298-1303 [div_]. Division by zero gives infinite or undefined numbers: [UB] stands for a result that is not modelled. *)
  Definition b_unit_norm (d : bt) : result bt :=
    let n := bt_elementwise (n_sqrt N) (bt_sum (bt_elementwise (fun z => rmul z z) d)) in
    do x <- BTensor.item n ; if reqb x rz then UB else b_div_ (ndiv N) d n.
  (** sources/dmrg.cpp:185-201. [d_r] of line 197 is not used, the exceptions its computation could throw are not modelled. *)
  Definition b_site_update : bool -> bt -> bt -> bt -> bt -> bt -> option (result (bt * bt * bt)) :=
    site_update (tensordot imax) (@conj G N) (@b_perm G N) (b_update imax eps) (fun A => svd_trunc gtb lower wt dsvd A 2 thr mn mx) b_unit_norm b_mul_.
End Blocks.

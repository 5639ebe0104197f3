(** Model of what the functor [dmrg_2sites_update] computes for one pair of sites, sources/dmrg.cpp:185-201, and of the truncated
    decomposition it calls. Model only. The indices and the environments it reads and writes are in Dmrg.v. *)
From Verif Require Import Base Quantity Ring Index SpecIndex Dense BTensor Bcast Tensordot Chain Num Truncate BSvd BTrunc MoveOc Eig2 Lanczos.
Set Implicit Arguments.

Section Alg.
  Variable T : Type.
  Variable tdot : T -> T -> list nat -> list nat -> result T.
  Variable tconj : T -> T.
  Variable tperm : list nat -> T -> result T.
  (** [two_sites_update], the truncated [svd] cut before dimension 2, [d /= sqrt(sum(d.pow(2)))] and [mul_]. *)
  Variable update : T -> T -> T -> T -> result (T * T).
  Variable svd2 : T -> option (result (T * T * T)).
  Variable unit_norm : T -> result T.
  Variable mul_ : T -> T -> result T.

  (** sources/dmrg.cpp:185-201: the energy and the two new sites. [d_r] of line 197 is not used. *)
  Definition site_update (forward : bool) (a a' h l r : T) : option (result (T * T * T)) :=
    obind (Some (merge tdot a a')) (fun local =>
    obind (Some (update local h l r)) (fun x =>
    obind (svd2 (snd x)) (fun y =>
    let '(u, d, v) := y in
    Some (do d <- unit_norm d ;
      if forward then do vd <- mul_ v d ; do b <- tperm [2; 0; 1] (tconj vd) ; Ok (fst x, u, b)
      else do ud <- mul_ u d ; do b <- tperm [2; 0; 1] (tconj v) ; Ok (fst x, ud, b))))).
End Alg.

(** Dense tensors over exact real or complex numbers. [eps] stands for 1e-15 and [dsvd] for [torch::svd] of a matrix; [wt] and
    [thr] as in Truncate.v. *)
Section Torch.
  Context {N : numeric} {W : weights}.
  Variable eps : N.
  Variable dsvd : dense N -> dense N * dense N * dense N.
  Variable wt : N -> W.
  Variable thr : W.
  Variables mn mx : Z.
  Notation t := (dense N).

  (** [x.index({Ellipsis, Slice(None, n)})] *)
  Definition d_slice (n : Z) (x : t) : t := first_n (Z.to_nat (if (n <? 0)%Z then n + Z.of_nat (last (dsh x) 0%nat) else n)%Z) x.
  (** sources/LinearAlgebra.cpp:77-84 [truncate] for values without batch dimensions, as in sources/LinearAlgebra.cpp:129-132. *)
  Definition d_truncate (u d v : t) : option (result (t * t * t)) :=
    obind (compute_last_index wt (last (dsh d) 0) [values d] thr mn mx) (fun i =>
      Some (Ok (d_slice (i + 1) u, d_slice (i + 1) d, d_slice (i + 1) v))).
  (** sources/LinearAlgebra.cpp:129-132 the truncated [svd] *)
  Definition d_svd_trunc (A : t) (split : nat) : option (result (t * t * t)) :=
    obind (Some (d_svd dsvd A split)) (fun y => let '(u, d, v) := y in d_truncate u d v).
  (** [sum(x)] and [x.pow(2)] *)
  Definition d_sum (x : t) : t := mkD [] (fun _ => sumf N (dv x) (idxs (dsh x))).
  Definition d_square (x : t) : t := d_map (fun z => rmul z z) x.
  (** [a /= b] with a divisor of one element. Division by zero gives infinite or undefined numbers: [UB] stands for a result
      that is not modelled. *)
  Definition t_div_ (a b : t) : result t := do x <- t_item b ; if reqb x rz then UB else t_zip true (ndiv N) a b.
  Definition t_unit_norm (d : t) : result t := t_div_ d (d_map (n_sqrt N) (d_sum (d_square d))).
  Definition t_site_update : bool -> t -> t -> t -> t -> t -> option (result (t * t * t)) :=
    site_update t_tdot t_conj t_perm (t_update eps) (fun A => d_svd_trunc A 2) t_unit_norm (t_zip true rmul).
End Torch.

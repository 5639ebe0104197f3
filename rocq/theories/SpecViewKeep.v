(** Views that keep the rank: fixed dimensions become one section of size one. *)
From Verif Require Import Base Quantity QuantityProofs Ring SpecIndex Dense BTensor SpecBTensor SpecView.
Set Implicit Arguments.

(** Sizes of the view: kept dimensions are unchanged. *)
Definition stay (p : pattern) (L : list (list nat)) : list (list nat) :=
  map2 (fun x l => match x with None => l | Some _ => [1] end) p L.
(** Quantities: a fixed dimension keeps the quantity of the section [b] of its element. *)
Definition qstay {G : abgroup} (bp : pattern) (Q : list (list G)) : list (list G) :=
  map2 (fun x l => match x with None => l | Some b => [nth b l (qe G)] end) bp Q.
(** The element of the original for an index of the view. *)
Definition set_at (p : pattern) (i : list nat) : list nat := map2 (fun x k => match x with None => k | Some a => a end) p i.
Definition d_view_keep {R : ring} (p : pattern) (D : dense R) : dense R :=
  mkD (map2 (fun x s => match x with None => s | Some _ => 1 end) p (dsh D)) (fun i => dv D (set_at p i)).

(** The vocabulary for properties of the dodecahedron and the Dodeca map. *)
From Coq Require Import Reals Permutation.
Require Import Verif.Py Verif.TractInfo Verif.Rings Verif.Sphere Verif.Dodeca.
Open Scope R_scope.

(** Sets are run through completely, in some order. *)
Definition any_order (order : set_order) : Prop := forall path s, Permutation (order path s) s.

(** The pairs of successive elements of a list, and of the last and the first. *)
Definition cyclic_pairs {A} (l : list A) : list (A * A) :=
  match l with [] => [] | x :: r => combine l (r ++ [x]) end.

(** Length and handedness are preserved. *)
Definition rotation (m : mat) : Prop :=
  (forall a b, dot (mat_vec m a) (mat_vec m b) = dot a b)
  /\ (forall a b, cross (mat_vec m a) (mat_vec m b) = mat_vec m (cross a b)).

(** The coordinate is on the same side as the centre of the tract of every great
    circle through two successive vertices of the tract (or on the circle; strictly). *)
Definition in_pentagon (t : tract sphere) (coord : sphere) : Prop :=
  forall p q, In (p, q) (cyclic_pairs (t_verts t)) ->
    let n := cross (vec_of p) (vec_of q) in
    0 <= dot n (vec_of coord) * dot n (vec_of (t_ctr t)).
Definition strictly_in_pentagon (t : tract sphere) (coord : sphere) : Prop :=
  forall p q, In (p, q) (cyclic_pairs (t_verts t)) ->
    let n := cross (vec_of p) (vec_of q) in
    0 < dot n (vec_of coord) * dot n (vec_of (t_ctr t)).

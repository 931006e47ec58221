(** Model of src/quadrature/canonical.rs: the quadrature rules that are chosen for mass and stiffness matrices.
    The tabulated rules of fenris-quadrature for triangles and tetrahedra (polyquad.rs, generated from data files) are arguments; [None] is the panic of [unwrap].
    The macros implement the traits for the element and for the mesh of that element type; the latter uses the same rule in every element. *)
From Coq Require Import Reals List.
From Verif Require Import ElementModel QuadratureModel.
Import ListNotations.

Section canonical.
Variables (root : nat -> nat -> option R) (triangle tetrahedron : nat -> option (rule point)).

(** canonical.rs:87-88, 93-94, 99-101, 107-109 *)
Definition canonical_mass : list (element * option (rule point)) :=
  [(tri3, triangle 2); (tri6, triangle 4); (quad4, quadrilateral_gauss root 2); (quad9, quadrilateral_gauss root 3);
   (tet4, tetrahedron 2); (tet10, tetrahedron 4); (tet20, tetrahedron 6);
   (hex8, hexahedron_gauss root 2); (hex20, hexahedron_gauss root 3); (hex27, hexahedron_gauss root 3)].

(** canonical.rs:89-90, 95-96, 102-104, 110-112 *)
Definition canonical_stiffness : list (element * option (rule point)) :=
  [(tri3, triangle 1); (tri6, triangle 2); (quad4, quadrilateral_gauss root 2); (quad9, quadrilateral_gauss root 3);
   (tet4, tetrahedron 1); (tet10, tetrahedron 2); (tet20, tetrahedron 4);
   (hex8, hexahedron_gauss root 2); (hex20, hexahedron_gauss root 3); (hex27, hexahedron_gauss root 3)].
End canonical.

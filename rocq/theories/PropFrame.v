(** C62. *)
From Coq Require Import Reals Lra Nsatz.
From Verif Require Import CgModel AabbModel AabbSpec.
Open Scope R_scope.

(** C62: the orthonormal frame of a unit vector *)
Theorem C62_orthonormal : forall x y z, x * x + y * y + z * z = 1 ->
  let '(u, v) := orthonormal_vectors x y z in
  dot3 u u = 1 /\ dot3 v v = 1 /\ dot3 u v = 0 /\ dot3 u (x, y, z) = 0 /\ dot3 v (x, y, z) = 0 /\ cross3 u v = (x, y, z).
Proof.
  intros x y z H. unfold orthonormal_vectors. assert (Hy : y * y = 1 - x * x - z * z) by lra.
  assert (G : forall s, s * s = 1 -> s + z <> 0 -> let a := - 1 / (s + z) in let b := x * y * a in let u := (1 + s * x * x * a, s * b, - s * x) in let v := (b, s + y * y * a, - y) in
    dot3 u u = 1 /\ dot3 v v = 1 /\ dot3 u v = 0 /\ dot3 u (x, y, z) = 0 /\ dot3 v (x, y, z) = 0 /\ cross3 u v = (x, y, z)).
  { intros s Hs Hn a b u v. assert (Ha : a * (s + z) = -1) by (unfold a; field; exact Hn). clearbody a. unfold u, v, b, dot3, cross3. clear u v b Hn Hy.
    repeat split; [..|f_equal; [f_equal|]]; nsatz. }
  destruct (Rlt_dec z 0); apply G; lra.
Qed.
Print Assumptions C62_orthonormal.

Example C62_example : 3/5 * (3/5) + 0 * 0 + -4/5 * (-4/5) = 1 /\ orthonormal_vectors (3/5) 0 (-4/5) <> orthonormal_vectors 0 (3/5) (-4/5).
Proof.
  split; [lra|]. unfold orthonormal_vectors. destruct (Rlt_dec _ _); [|lra]. intros H. injection H as _ _ H _ _ _. lra.
Qed.

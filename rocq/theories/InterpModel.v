(** Interpolation at fixed points: src/space/fixed_interpolator.rs. Scalars are exact reals. *)
From stdpp Require Import base list.
From Coq Require Import Reals.
From Verif Require Import Prelude.

(** 14-31: [node_values] and [node_gradients] are present or absent. *)
Record interpolator := Interpolator {
  in_max : option nat;
  in_values : option (list R);
  in_gradients : option (list R);
  in_indices : list nat;
  in_offsets : list nat;
}.

(** [&v[a..b]] *)
Definition slice {A} (l : list A) (a b : nat) : outcome unit (list A) :=
  if decide (a <= b /\ b <= length l) then Ok (take (b - a) (drop a l)) else Panic.

(** 205-245 [from_compressed_values] *)
Definition from_compressed (values gradients : option (list R)) (indices offsets : list nat) : outcome unit interpolator :=
  if decide (Forall (fun i => i < length indices + 1) offsets) then
    let! _ := match values with
              | Some v => if decide (length v = length indices) then Ok tt else Panic
              | None => Ok tt
              end in
    let! _ := match gradients with
              | Some g =>
                  if decide (length indices ≠ 0) then
                    if decide (length g mod length indices = 0) then Ok tt else Panic
                  else if decide (length g ≠ 0) then Panic else Ok tt
              | None => Ok tt
              end in
    Ok (Interpolator (match indices with [] => None | _ => Some (foldr Nat.max 0 indices) end) values gradients indices offsets)
  else Panic.

(** 99-107, 160-168: the two assertions *)
Definition check_sizes (it : interpolator) (s n : nat) (u : list R) : outcome unit unit :=
  if decide (n + 1 = length (in_offsets it)) then
    match in_max it with
    | None => Ok tt
    | Some m => if decide (s * m < length u) then Ok tt else Panic
    end
  else Panic.

Definition at_offset (it : interpolator) (i : nat) : outcome unit nat :=
  match in_offsets it !! i with Some o => Ok o | None => Panic end.

(** [u.rows_generic(s * j, s)] *)
Definition node_rows (s : nat) (u : list R) (j : nat) : outcome unit (list R) := slice u (s * j) (s * j + s).

(** 92-123 [interpolate_into_] for [n] interpolation points and solution dimension [s] *)
Definition interpolate_into (it : interpolator) (s n : nat) (u : list R) : outcome unit (list (list R)) :=
  let! _ := check_sizes it s n u in
  match in_values it with
  | None => Panic
  | Some values =>
      ofold (fun result i =>
        let! a := at_offset it i in
        let! b := at_offset it (i + 1) in
        let! vs := slice values a b in
        let! js := slice (in_indices it) a b in
        let! x := ofold (fun acc '(v, j) =>
          let! uj := node_rows s u j in
          Ok (zip_with Rplus acc (map (fun x => (x * v)%R) uj))) (repeat 0%R s) (zip vs js) in
        Ok (result ++ [x])) [] (seq 0 n)
  end.

(** 70-80 [interpolate] *)
Definition interpolate (it : interpolator) (s : nat) (u : list R) : outcome unit (list (list R)) :=
  match length (in_offsets it) with
  | 0 => Panic
  | S n => interpolate_into it s n u
  end.

(** the columns of a matrix with [d] rows stored column by column *)
Definition column (d : nat) (g : list R) (k : nat) : list R := take d (drop (d * k) g).

(** 150-199 [interpolate_gradients_into_]; the result of a point is the list of rows of its [d] × [s] matrix. [ger] adds the outer
    product of the two vectors. *)
Definition interpolate_gradients_into (it : interpolator) (d s n : nat) (u : list R) : outcome unit (list (list (list R))) :=
  let! _ := check_sizes it s n u in
  match in_gradients it with
  | None => Panic
  | Some gradients =>
      ofold (fun result i =>
        let! a := at_offset it i in
        let! b := at_offset it (i + 1) in
        let! gs := slice gradients (d * a) (d * b) in
        let! js := slice (in_indices it) a b in
        let! x := ofold (fun acc '(g, j) =>
          let! uj := node_rows s u j in
          Ok (zip_with (fun row gi => zip_with Rplus row (map (fun x => (gi * x)%R) uj)) acc g)) (repeat (repeat 0%R s) d)
          (zip (map (column d gs) (seq 0 (b - a))) js) in
        Ok (result ++ [x])) [] (seq 0 n)
  end.

(** 128-140 [interpolate_gradients] *)
Definition interpolate_gradients (it : interpolator) (d s : nat) (u : list R) : outcome unit (list (list (list R))) :=
  match length (in_offsets it) with
  | 0 => Panic
  | S n => interpolate_gradients_into it d s n u
  end.

(** * 247-397: construction from a finite element space *)
Section Space.
  Context {P X : Type}.
  (** The space: closest element and reference coordinates of a point; nodes, basis values and reference gradients of an
      element; the transposed inverse of the Jacobian at reference coordinates ([None] if it is singular). Values of the basis and
      its gradients are functions of the local node number, so buffers always have the right size. *)
  Record space := Space {
    sp_find : P -> option (nat * X);
    sp_nodes : nat -> list nat;
    sp_basis : nat -> X -> nat -> R;
    sp_ref_grad : nat -> X -> nat -> nat -> R;
    sp_jinv_t : nat -> X -> option (nat -> nat -> R);
  }.

  Definition sum_to (n : nat) (f : nat -> R) : R := foldl Rplus 0%R (map f (seq 0 n)).

  (** one pass of the loop 266-309 for a point whose closest element is known *)
  Definition add_point (sp : space) (d : nat) (st : option (list R) * option (list R) * list nat) (e : nat) (xi : X) :
      outcome unit (option (list R) * option (list R) * list nat) :=
    let '(values, gradients, indices) := st in
    let nodes := sp_nodes sp e in
    let values := match values with
                  | Some v => Some (v ++ map (sp_basis sp e xi) (seq 0 (length nodes)))
                  | None => None
                  end in
    let! gradients := match gradients with
                      | Some g =>
                          match sp_jinv_t sp e xi with
                          | None => Panic
                          | Some jit =>
                              Ok (Some (g ++ concat (map (fun a => map (fun i => sum_to d (fun j => jit i j * sp_ref_grad sp e xi a j)%R) (seq 0 d))
                                (seq 0 (length nodes)))))
                          end
                      | None => Ok None
                      end in
    Ok (values, gradients, indices ++ nodes).

  (** 266-309: the loop stops at the first point without an element *)
  Fixpoint add_points (sp : space) (d : nat) (offsets : list nat) (st : option (list R) * option (list R) * list nat)
      (closest : list (option (nat * X))) : outcome unit (list nat * (option (list R) * option (list R) * list nat)) :=
    match closest with
    | [] => Ok (offsets, st)
    | c :: closest =>
        let offsets := offsets ++ [length st.2] in
        match c with
        | None => Ok (offsets, st)
        | Some (e, xi) =>
            let! st := add_point sp d st e xi in
            add_points sp d offsets st closest
        end
    end.

  (** 247-315 [from_space_and_points]; [want_values] and [want_gradients] are the two bits of [ValuesOrGradients] *)
  Definition from_space (sp : space) (d : nat) (points : list P) (want_values want_gradients : bool) : outcome unit interpolator :=
    let! r := add_points sp d [] (if want_values then Some [] else None, if want_gradients then Some [] else None, [])
                (map (sp_find sp) points) in
    let '(offsets, (values, gradients, indices)) := r in
    let offsets := offsets ++ [length indices] in
    if decide (length points + 1 = length offsets) then from_compressed values gradients indices offsets else Panic.
End Space.
Arguments space : clear implicits.

(** Rules as lists of weighted points, and integrals of polynomials over cells. *)
From Coq Require Import Reals List Arith Lia Lra.
From Coquelicot Require Import Coquelicot.
From Verif Require Import ElementModel ElementSpec QuadratureModel QuadPoly QuadPolyN.
Import ListNotations.
Local Open Scope R_scope.

Section Rules.
Context {P : Type}.
Definition unz (l : list (R * P)) : rule P := (map fst l, map snd l).
Definition zipped (q : rule P) : list (R * P) := List.combine (fst q) (snd q).

Lemma unz_push l w p : (fst (unz l) ++ (w :: []), snd (unz l) ++ (p :: [])) = unz (l ++ ((w, p) :: [])).
Proof. unfold unz. cbn. rewrite !map_app. reflexivity. Qed.

Lemma fold_unz {A} (body : rule P -> A -> rule P) (g : A -> list (R * P)) (k : list A) : (forall l a, In a k -> body (unz l) a = unz (l ++ g a)) ->
  forall l, fold_left body k (unz l) = unz (l ++ flat_map g k).
Proof.
  induction k as [|a k IH]; intros H l; cbn; [rewrite app_nil_r; reflexivity|]. rewrite H by (left; reflexivity). rewrite IH by (intros; apply H; right; assumption).
  rewrite app_assoc. reflexivity.
Qed.

Lemma flat_map_single {A B} (f : A -> B) k : flat_map (fun a => f a :: []) k = map f k.
Proof. induction k as [|a k IH]; cbn; [reflexivity|]. rewrite IH. reflexivity. Qed.

Lemma zipped_unz l : zipped (unz l) = l.
Proof. unfold zipped, unz. induction l as [|[w p] l IH]; cbn in *; [reflexivity|]. rewrite IH. reflexivity. Qed.

Definition total (l : list (R * P)) (f : P -> R) : R := sum (map (fun wp => fst wp * f (snd wp)) l).

Lemma fold_sum {A} (h : A -> R) l : forall a, fold_left (fun acc x => acc + h x) l a = a + sum (map h l).
Proof. induction l as [|x l IH]; intros a; cbn; [ring|]. rewrite IH. unfold sum. ring. Qed.

Lemma integrate_total q f : rule_integrate q f = total (zipped q) f.
Proof. unfold rule_integrate. rewrite (fold_sum (fun wp => fst wp * f (snd wp))). unfold total, zipped. ring. Qed.
Lemma quadrature_total q f : quadrature_integrate q f = total (zipped q) f.
Proof.
  unfold quadrature_integrate. rewrite (fold_sum (fun wp => f (snd wp) * fst wp)). unfold total, zipped. rewrite Rplus_0_l. f_equal. apply map_ext. intros. ring.
Qed.
Lemma integrate_unz l f : rule_integrate (unz l) f = total l f.
Proof. rewrite integrate_total, zipped_unz. reflexivity. Qed.

Lemma sum_app u v : sum (u ++ v) = sum u + sum v.
Proof. unfold sum. induction u as [|a u IH]; cbn; [ring|]. rewrite IH. ring. Qed.
Lemma total_app u v f : total (u ++ v) f = total u f + total v f.
Proof. unfold total. rewrite map_app, sum_app. reflexivity. Qed.
Lemma total_flat {A} (g : A -> list (R * P)) k f : total (flat_map g k) f = sum (map (fun a => total (g a) f) k).
Proof. induction k as [|a k IH]; [reflexivity|]. cbn [flat_map map]. rewrite total_app, IH. reflexivity. Qed.
Lemma total_map {A} (w : A -> R) (p : A -> P) k f : total (map (fun a => (w a, p a)) k) f = sum (map (fun a => w a * f (p a)) k).
Proof. unfold total. rewrite map_map. reflexivity. Qed.

Lemma sum_ext' {A} (k : list A) (f g : A -> R) : (forall x, In x k -> f x = g x) -> sum (map f k) = sum (map g k).
Proof. intros H. f_equal. apply map_ext_in, H. Qed.
Lemma sum_scale {A} (k : list A) c (f : A -> R) : sum (map (fun a => c * f a) k) = c * sum (map f k).
Proof. unfold sum. induction k as [|a k IH]; cbn; [ring|]. rewrite IH. ring. Qed.
Lemma sum_plus {A} (k : list A) (f g : A -> R) : sum (map (fun a => f a + g a) k) = sum (map f k) + sum (map g k).
Proof. unfold sum. induction k as [|a k IH]; cbn; [ring|]. rewrite IH. ring. Qed.
Lemma total_ext l f g : (forall p, f p = g p) -> total l f = total l g.
Proof. intros H. apply sum_ext'. intros wp _. rewrite H. reflexivity. Qed.

(** weights of a rule *)
Lemma zipped_weights (q : rule P) : length (fst q) = length (snd q) -> map fst (zipped q) = fst q /\ map snd (zipped q) = snd q.
Proof.
  unfold zipped. destruct q as [ws ps]. cbn. revert ps. induction ws as [|w ws IH]; intros [|p ps] E; try discriminate; [split; reflexivity|].
  cbn. injection E as E. destruct (IH ps E) as [-> ->]. split; reflexivity.
Qed.
Lemma zipped_length (q : rule P) : length (fst q) = length (snd q) -> length (zipped q) = length (fst q).
Proof. intros E. unfold zipped. rewrite combine_length. lia. Qed.
Lemma total_one l : total l (fun _ => 1) = sum (map fst l).
Proof. apply sum_ext'. intros. ring. Qed.
End Rules.

(** one-dimensional integrals of polynomials *)
Lemma integral_affine d f u v a b : Pol d f -> u * integral (fun x => f (u * x + v)) a b = integral f (u * a + v) (u * b + v).
Proof.
  intros F. unfold integral. rewrite <- (RInt_comp_lin f u v a b) by (apply (Pol_ex_RInt d), F).
  symmetry. apply (RInt_scal (V := R_CompleteNormedModule)). apply (Pol_ex_RInt d). apply (Pol_comp d f u v F).
Qed.

Lemma integral_chasles d f a b c : Pol d f -> integral f a b + integral f b c = integral f a c.
Proof. intros F. unfold integral. apply (RInt_Chasles (V := R_CompleteNormedModule) f a b c); apply (Pol_ex_RInt d), F. Qed.

Lemma integral_point d f a : Pol d f -> integral f a a = 0.
Proof. intros F. pose proof (integral_chasles d f a a a F). lra. Qed.
Lemma integral_opp d f a b : Pol d f -> integral f b a = - integral f a b.
Proof. intros F. pose proof (integral_chasles d f a b a F). pose proof (integral_point d f a F). lra. Qed.

(** a rule for polynomials with [d] coefficients *)
Definition exact1 (d : nat) (q : rule R) : Prop := forall l, (length l <= d)%nat -> rule_integrate q (horner l) = integral (horner l) (-1) 1.

Lemma exact1_Pol d q f : exact1 d q -> Pol d f -> rule_integrate q f = integral f (-1) 1.
Proof.
  intros X (l & Hl & E). rewrite (Pol_RInt_ext f (horner l)) by exact E. rewrite <- X by exact Hl. rewrite !integrate_total. apply total_ext. exact E.
Qed.

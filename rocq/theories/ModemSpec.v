(* Vocabulary of the modulation properties. *)
From Verif Require Import Base Cplx ModemModel.
Open Scope Z_scope.

(* the j-th binary digit, most significant first, of label l written with w digits *)
Definition digit (w : nat) (l : nat) (j : nat) : Z := (Z.of_nat l / 2 ^ (Z.of_nat w - 1 - Z.of_nat j)) mod 2.
(* likelihood of "bit j of the label is t" given the received value y in complex Gaussian noise of variance v, up to a constant *)
Definition likelihood (pts : list C) (w : nat) (y : C) (v : R) (j : nat) (t : Z) : R :=
  Rsum (map (fun l => exp (- Cnorm2 (y - nth l pts C0)%C / v)) (filter (fun l => digit w l j =? t) (seq 0 (2 ^ w)))).
(* labels x and y differ in exactly one binary digit *)
Definition one_bit_apart (x y : Z) : Prop := exists q, 0 <= q /\ forall p, 0 <= p -> Z.testbit x p <> Z.testbit y p <-> p = q.
(* received value y is strictly closer to the point x than to every other point of the constellation *)
Definition closest (c : list C) (x y : C) : Prop := forall p, In p c -> p <> x -> (Cabs (y - x)%C < Cabs (y - p)%C)%R.
(* m is the smallest squared distance from y to a point whose label has t as its bit j *)
Definition nearest_bit (pts : list C) (w : nat) (y : C) (j : nat) (t : Z) (m : R) : Prop :=
  (exists l, (l < 2 ^ w)%nat /\ digit w l j = t /\ Cnorm2 (y - nth l pts C0)%C = m) /\
  forall l, (l < 2 ^ w)%nat -> digit w l j = t -> (m <= Cnorm2 (y - nth l pts C0)%C)%R.

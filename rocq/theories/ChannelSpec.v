(* Vocabulary of the channel properties C50-C54, C64, independent of the model's helpers. *)
From Verif Require Import Base Cplx MimoModel ChannelModel.
Open Scope Z_scope.

(* ---------------------------------------------------------------- matrices *)
Definition entry (m : list (list C)) (i j : nat) : C := nth j (nth i m []) C0.
Definition shape (rows cols : nat) (m : list (list C)) : Prop := length m = rows /\ Forall (fun row => length row = cols) m.
Definition diag_sum (n : nat) (m : list (list C)) : C := Csum (map (fun i => entry m i i) (seq 0 n)).
(* sum of the squared magnitudes of the entries *)
Definition energy_of (m : list (list C)) : R := Rsum (map (fun row => Rsum (map Cnorm2 row)) m).
Definition hermitian (n : nat) (m : list (list C)) : Prop := forall i j, (i < n)%nat -> (j < n)%nat -> entry m i j = Cconj (entry m j i).
(* x^H m x *)
Definition quadratic (n : nat) (m : list (list C)) (x : nat -> C) : C :=
  Csum (map (fun i => Csum (map (fun j => (Cconj (x i) * entry m i j * x j)%C) (seq 0 n))) (seq 0 n)).
Definition positive (n : nat) (m : list (list C)) : Prop := forall x, im (quadratic n m x) = 0%R /\ (0 <= re (quadratic n m x))%R.

(* the normalisation of a MIMO channel with tx and rx antennas: trace(Rt) trace(Rr) + sum of |mean|^2 = tx rx *)
Definition total_energy (tx rx : nat) (f : fading) : C := (diag_sum tx (f_rt f) * diag_sum rx (f_rr f) + ofR (energy_of (m_rows (f_mean f))))%C.

(* ---------------------------------------------------------------- expectation *)
(* an expectation on the random outcomes w: a normalised linear functional *)
Record expectation {W : Type} (E : (W -> R) -> R) : Prop := {
  ex_ext : forall f g, (forall w, f w = g w) -> E f = E g;
  ex_add : forall f g, E (fun w => f w + g w)%R = (E f + E g)%R;
  ex_mul : forall k f, E (fun w => k * f w)%R = (k * E f)%R;
  ex_one : E (fun _ => 1%R) = 1%R }.
(* the draws listed in l have mean 0, variance 1 and are pairwise uncorrelated, as numpy's standard_normal *)
Definition white {W I : Type} (E : (W -> R) -> R) (l : list I) (z : I -> W -> R) : Prop :=
  (forall i, In i l -> E (z i) = 0%R) /\ (forall i, In i l -> E (fun w => z i w * z i w)%R = 1%R) /\
  (forall i j, In i l -> In j l -> i <> j -> E (fun w => z i w * z j w)%R = 0%R).
(* s s^H = m, as for the Hermitian square root of a positive matrix *)
Definition root_of (n : nat) (m s : list (list C)) : Prop :=
  shape n n s /\ forall i i', (i < n)%nat -> (i' < n)%nat -> Csum (map (fun j => (entry s i j * Cconj (entry s i' j))%C) (seq 0 n)) = entry m i i'.

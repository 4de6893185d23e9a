(* Belief propagation, textbook form, over the reals; and the real interpretation of the decoder's arithmetic. *)
From Coq Require Import Reals Lra.
From Verif Require Import Base TurboSpec LdpcModel LdpcSpec LdpcDecModel.
Open Scope R_scope.

Definition clip500 (x : R) : R := Rmax (-500) (Rmin 500 x).
Definition prodR (l : list R) : R := fold_right Rmult 1 l.
Definition signR (x : R) : R := if Rlt_dec 0 x then 1 else if Rlt_dec x 0 then -1 else 0.
Definition negative (x : R) : bool := if Rlt_dec x 0 then true else false.

(* The decoder's arithmetic read over the reals.  n_prod: exp2 of the sum of the complex log2, real part, is the
   product; atanh of +-1 is infinite in floating point and clipped to +-500 next: any value beyond 500 stands for it. *)
Definition atanhR (x : R) : R := if Rlt_dec x 1 then if Rlt_dec (-1) x then / 2 * ln ((1 + x) / (1 - x)) else -1000 else 1000.
Definition real_ops : numops := {|
  num := R; n_zero := 0; n_clip := clip500; n_signbit := negative; n_add := Rplus; n_neg := fun x => x * -1; n_sum := fold_right Rplus 0;
  n_half := fun x => x * / 2; n_tanh := tanh; n_prod := prodR; n_inv := Rinv; n_mul := Rmult; n_clip1 := fun x => Rmax (-1) (Rmin 1 x);
  n_atanh := atanhR; n_double := fun x => x * 2; n_sign := signR; n_prod_sign := prodR; n_abs := Rabs; n_min := Rmin |}.

(* P(bit = 0) and P(bit = 1) of a bit with log-likelihood ratio l = ln (P(0) / P(1)) *)
Definition prob (l : R) (b : Z) : R := if (b =? 0)%Z then exp l / (1 + exp l) else 1 / (1 + exp l).
Fixpoint weight (ls : list R) (x : list Z) : R := match ls, x with l :: ls', b :: x' => prob l b * weight ls' x' | _, _ => 1 end.
(* probability that independent bits with these ratios have the given parity *)
Definition parity_prob (ls : list R) (parity : Z) : R := total (weight ls) (filter (fun x => (Zsum x mod 2 =? parity)%Z) (all_bits (length ls))).

(* what a check node tells a variable node, given the ratios of the other variables of the check *)
Definition spa_rule (ls : list R) : R := match ls with [] => 500 | _ => clip500 (ln (parity_prob ls 0 / parity_prob ls 1)) end.
Definition min_abs (ls : list R) : R := match ls with [] => 0 | x :: l => fold_left Rmin (map Rabs l) (Rabs x) end.
Definition msa_rule (ls : list R) : R := prodR (map signR ls) * min_abs ls.

Section BP.
  Variables (H : arr2) (rule : list R -> R) (llr : nat -> R).
  Definition vars_of (c : nat) : list nat := filter (fun v => (hij (a_rows H) c v =? 1)%Z) (seq 0 (a_cols H)).
  Definition checks_of (v : nat) : list nat := filter (fun c => (hij (a_rows H) c v =? 1)%Z) (seq 0 (length (a_rows H))).
  (* message of check c to variable v, from the messages q of the variables *)
  Definition to_var (q : nat -> nat -> R) (c v : nat) : R := rule (map (q c) (filter (fun w => negb (w =? v)%nat) (vars_of c))).
  Definition posterior (q : nat -> nat -> R) (v : nat) : R := llr v + total (fun c => to_var q c v) (checks_of v).
  (* messages of the variables to the checks before iteration t *)
  Fixpoint to_check (t : nat) (c v : nat) : R :=
    match t with O => llr v | S t' => posterior (to_check t') v - to_var (to_check t') c v end.
  (* beliefs after t iterations *)
  Definition belief (t : nat) (v : nat) : R := match t with O => llr v | S t' => posterior (to_check t') v end.
  Definition hard (t : nat) : list bool := map (fun v => negative (belief t v)) (seq 0 (a_cols H)).
End BP.

(* the received values when every bit of x that is one is sent inverted, and the bits changed accordingly *)
Definition flip_signs (x : list Z) (l : list R) : list R := map (fun p => if (fst p =? 1)%Z then - snd p else snd p) (combine x l).
Definition flip_bits (x : list Z) (w : list bool) : list bool := map (fun p => xorb (fst p =? 1)%Z (snd p)) (combine x w).

(* number of checks that involve both v and w *)
Definition common_checks (H : arr2) (v w : nat) : nat := length (filter (fun c => (hij (a_rows H) c w =? 1)%Z) (checks_of H v)).
(* positions where the decision on the received value differs from the word x *)
Definition errors (x : list Z) (llr : list R) : list nat := filter (fun v => xorb (nth v x 0 =? 1)%Z (negative (nth v llr 0))) (seq 0 (length llr)).
(* positions received as erasures *)
Definition erased (llr : list R) (v : nat) : Prop := (v < length llr)%nat /\ nth v llr 0 = 0.
(* no check has exactly one variable in S *)
Definition stopping_set (H : arr2) (S : nat -> bool) : Prop :=
  forall c, (c < length (a_rows H))%nat -> length (filter S (vars_of H c)) <> 1%nat.

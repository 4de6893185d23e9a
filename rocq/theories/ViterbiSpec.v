(* Vocabulary of the Viterbi theorems. *)
From Coq Require Import Reals.
From Verif Require Import Base UtilModel TrellisModel TrellisSpec FloatRate ConvProofs ViterbiModel.

(* input symbols of the trellis *)
Definition inputs (k : nat) (us : list Z) : Prop := Forall (fun u => 0 <= u < 2 ^ Z.of_nat k) us.

(* the code stream of the input symbols us, encoded from state 0: walk the tables, write each output word
   most significant bit first *)
Definition encoded (tr : Trellis) (us : list Z) : list Z :=
  bitstream (tr_n tr) (emit (entry (tr_next tr)) (entry (tr_out tr)) 0 us).

(* us minimises the cost of its code stream among all input sequences of the same length *)
Definition minimises {A} (le : A -> A -> Prop) (tr : Trellis) (cost : list Z -> A) (us : list Z) : Prop :=
  inputs (tr_k tr) us /\
  forall us', length us' = length us -> inputs (tr_k tr) us' -> le (cost (encoded tr us)) (cost (encoded tr us')).

(* the first tau received words, continued by the padding value *)
Definition seen {X} (n : nat) (coded : list X) (pad : X) (tau : nat) : list X :=
  firstn (tau * n) (coded ++ repeat pad (tau * n)).

(* number of differing entries *)
Definition mismatches (a b : list Z) : Z := Z.of_nat (length (filter (fun p => negb (fst p =? snd p)) (combine a b))).
(* squared Euclidean distance to the antipodal image 0 -> -1, 1 -> +1 *)
Definition sqdist (a : list R) (b : list Z) : R :=
  fold_right Rplus 0%R (map (fun p => ((fst p - IZR (2 * snd p - 1)) ^ 2)%R) (combine a b)).
(* negative log-likelihood of the bits b under log-likelihood ratios a = ln(P(1)/P(0)) *)
Definition nll (a : list R) (b : list Z) : R :=
  fold_right Rplus 0%R (map (fun p => (- ln (if snd p =? 0 then 1 / (1 + exp (fst p)) else exp (fst p) / (1 + exp (fst p))))%R) (combine a b)).

(* different inputs give different output words in every state: the D^0 coefficients distinguish them *)
Definition output_injective (C : code) : Prop := forall u u', 0 <= u < 2 ^ Z.of_nat (kk C) -> 0 <= u' < 2 ^ Z.of_nat (kk C) ->
  (forall j, (j < outs C)%nat ->
     xsum (map (fun i => Z.testbit u (Z.of_nat (kk C) - 1 - Z.of_nat i) && gcoef C i j 0) (seq 0 (kk C))) =
     xsum (map (fun i => Z.testbit u' (Z.of_nat (kk C) - 1 - Z.of_nat i) && gcoef C i j 0) (seq 0 (kk C)))) -> u = u'.

(* the uninitialised work arrays of one call have the shapes np.empty gives them *)
Definition shaped {A} (C : code) (gs : nat -> scratch A) : Prop :=
  forall t, length (pmetrics (gs t)) = (2 ^ kk C)%nat /\ length (index_array (gs t)) = (2 ^ MM C)%nat.

(* number of steps of the main loop for B received words *)
Definition steps (C : code) (B : nat) : nat := ((B * kk C + MM C) / kk C - 1)%nat.

(* the traceback depth used for B received words: tb_depth, or min(5 * total_memory, number of message bits) *)
Definition depth (C : code) (B : nat) (tb_depth : option nat) : nat :=
  match tb_depth with Some x => x | None => Nat.min (5 * MM C) (B * kk C) end.

(* the depth can be used: at least 2, not beyond the last step, and the work array is large enough *)
Definition usable (C : code) (B : nat) (tb_depth : option nat) : Prop :=
  (2 <= depth C B tb_depth)%nat /\ (depth C B tb_depth <= steps C B + 1)%nat /\ (MM C <= depth C B tb_depth + kk C)%nat.

(* the code, the number B of received words and the work arrays meet the requirements of the decoder *)
Definition decodable {A} (C : code) (B : nat) (gs : nat -> scratch A) : Prop :=
  well_formed C /\ (fback C = None \/ input_injective C) /\ (1 <= outs C)%nat /\ (kk C <= MM C)%nat /\
  mul_ok (kk C) (outs C) = true /\ Z.of_nat (kk C) * Z.of_nat B < 2 ^ 49 /\ shaped C gs.

(* the received value x carries the bit b in its sign *)
Definition carries (x : R) (b : Z) : Prop := (b = 1 /\ (0 < x)%R) \/ (b = 0 /\ (x < 0)%R).

(* the outputs j with known j = true determine the input in every state (all outputs: output_injective) *)
Definition determines (C : code) (known : nat -> bool) : Prop := forall u u', 0 <= u < 2 ^ Z.of_nat (kk C) -> 0 <= u' < 2 ^ Z.of_nat (kk C) ->
  (forall j, (j < outs C)%nat -> known j = true ->
     xsum (map (fun i => Z.testbit u (Z.of_nat (kk C) - 1 - Z.of_nat i) && gcoef C i j 0) (seq 0 (kk C))) =
     xsum (map (fun i => Z.testbit u' (Z.of_nat (kk C) - 1 - Z.of_nat i) && gcoef C i j 0) (seq 0 (kk C)))) -> u = u'.

(* number of nonzero entries *)
Definition weight (l : list Z) : Z := Z.of_nat (length (filter (fun b => negb (b =? 0)) l)).

(* distance of the code as the decoder sees it: symbol b is decided from the first
   min(steps, b + depth - 1) words, and every input sequence of that length with a nonzero symbol b has
   a code stream of weight at least d *)
Definition window_distance (C : code) (tr : Trellis) (B : nat) (tb_depth : option nat) (d : Z) : Prop :=
  forall b e, (b < B)%nat -> length e = Nat.min (steps C B) (b + depth C B tb_depth - 1) -> inputs (kk C) e -> nth b e 0 <> 0 -> d <= weight (encoded tr e).

(* the rate 1/2, four-state textbook code with generators 5 and 7 (octal) *)
Definition code_5_7 : code := {| memory := [2%nat]; outs := 2; gens := [[5; 7]]; fback := None; fmt := MSB |}.

(* Vocabulary of the turbo code theorems. *)
From Coq Require Import Reals.
From Verif Require Import Base UtilModel TrellisModel TrellisSpec ConvProofs.

(* a trellis of a rate 1/2 code: k = 1, n = 2, complete tables with entries in range *)
Definition half_rate (tr : Trellis) : Prop := tr_k tr = 1%nat /\ tr_n tr = 2%nat /\ valid_trellis tr.
(* the first (most significant) output bit is the input bit *)
Definition systematic (tr : Trellis) : Prop := forall s u, 0 <= s < 2 ^ Z.of_nat (tr_M tr) -> 0 <= u < 2 -> entry (tr_out tr) s u / 2 = u.
(* both tables are linear over GF(2) *)
Definition linear (tr : Trellis) : Prop := forall s s' u u', 0 <= s < 2 ^ Z.of_nat (tr_M tr) -> 0 <= s' < 2 ^ Z.of_nat (tr_M tr) -> 0 <= u < 2 -> 0 <= u' < 2 ->
  entry (tr_next tr) (Z.lxor s s') (Z.lxor u u') = Z.lxor (entry (tr_next tr) s u) (entry (tr_next tr) s' u') /\
  entry (tr_out tr) (Z.lxor s s') (Z.lxor u u') = Z.lxor (entry (tr_out tr) s u) (entry (tr_out tr) s' u').

(* the two output bits of the encoder that reads us from state s, clock by clock *)
Fixpoint words (tr : Trellis) (s : Z) (us : list Z) : list (Z * Z) :=
  match us with
  | [] => []
  | u :: us' => (entry (tr_out tr) s u / 2, entry (tr_out tr) s u mod 2) :: words tr (entry (tr_next tr) s u) us'
  end.
Definition parity (tr : Trellis) (us : list Z) : list Z := map snd (words tr 0 us).

(* what the encoder reads: the message, and for a code that is not 'rsc' also the terminating zeros *)
Definition fed (tr : Trellis) (msg : list Z) : list Z := if tr_rsc tr then msg else msg ++ repeat 0 (tr_M tr).

(* all bit sequences of length n *)
Fixpoint all_bits (n : nat) : list (list Z) :=
  match n with O => [[]] | S n => map (cons 0) (all_bits n) ++ map (cons 1) (all_bits n) end.

Local Open Scope R_scope.

Definition total {A} (f : A -> R) (l : list A) : R := fold_right Rplus 0 (map f l).

(* P(u) when ln (P(1)/P(0)) = l *)
Definition prior (l : R) (u : Z) : R := if (u =? 1)%Z then exp l / (1 + exp l) else 1 / (1 + exp l).
(* density (up to a constant) of receiving r when the bit b was sent as -1 or +1 in noise of variance v *)
Definition gauss (v r : R) (b : Z) : R := exp (- (r - IZR (2 * b - 1)) ^ 2 / (2 * v)).

(* likelihood of the received values times the prior probability of the input sequence us *)
Fixpoint weight_from (tr : Trellis) (v : R) (sys par L : list R) (s : Z) (us : list Z) : R :=
  match us with
  | [] => 1
  | u :: us' =>
      gauss v (hd 0 sys) (entry (tr_out tr) s u / 2) * gauss v (hd 0 par) (entry (tr_out tr) s u mod 2) * prior (hd 0 L) u *
      weight_from tr v (tl sys) (tl par) (tl L) (entry (tr_next tr) s u) us'
  end.
Definition weight (tr : Trellis) (v : R) (sys par L : list R) (us : list Z) : R := weight_from tr v sys par L 0 us.

(* total weight of the sequences of length n with bit t equal to b *)
Definition evidence (tr : Trellis) (v : R) (sys par L : list R) (n t : nat) (b : Z) : R :=
  total (weight tr v sys par L) (filter (fun us => (nth t us 0 =? b)%Z) (all_bits n)).

(* the received value does not contradict the bit *)
Definition agrees (x : R) (b : Z) : Prop := (b = 1%Z -> 0 <= x) /\ (b = 0%Z -> x <= 0).

(* squared distance between the received values and a code word sent as -1 / +1 *)
Fixpoint sq_dist (ws : list (Z * Z)) (sys par : list R) : R :=
  match ws with
  | [] => 0
  | (a, b) :: ws' => (hd 0 sys - IZR (2 * a - 1)) ^ 2 + (hd 0 par - IZR (2 * b - 1)) ^ 2 + sq_dist ws' (tl sys) (tl par)
  end.

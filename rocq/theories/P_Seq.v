(* Properties C09, C10 (PN sequences) and C12 (interleavers). *)
From Verif Require Import Base SeqModel SeqProofs.
From Coq Require Import Permutation.

(* ---------------------------------------------------------------- C09 *)
Theorem C09_pn_recurrence : forall (order len : nat) (seed mask : list Z),
  (1 <= order)%nat -> length seed = order -> length mask = order -> bits seed -> bits mask ->
  exists out, pnsequence order seed mask len = Ok out /\ length out = len /\ bits out /\
    (forall t, (t < len)%nat -> (t < order)%nat -> nth t out 0 = nth (order - 1 - t) seed 0) /\
    (forall t, (t + order < len)%nat ->
       nth (t + order) out 0 = Zsum (map (fun j => nth j mask 0 * nth (t + order - 1 - j) out 0) (seq 0 order)) mod 2).
Proof. exact pnsequence_recurrence. Qed.
Print Assumptions C09_pn_recurrence.
(* the doctest-style case of the test suite: order 4, seed 1000, mask 1100 *)
Example C09_witness : pnsequence 4 [1; 0; 0; 0] [1; 1; 0; 0] 8 = Ok [0; 0; 0; 1; 1; 0; 1; 1] /\
  bits [1; 0; 0; 0] /\ bits [1; 1; 0; 0].
Proof. repeat split; repeat constructor; (left; reflexivity) || (right; reflexivity). Qed.

Theorem C09_pn_errors : forall (order len : nat) (seed mask : list Z),
  pnsequence order seed mask len = Err ValueError <-> length seed <> order \/ length mask <> order.
Proof. exact pnsequence_errors. Qed.
Print Assumptions C09_pn_errors.
Example C09_errors_witness : pnsequence 4 [1; 0; 0] [1; 1; 0; 0] 8 = Err ValueError.
Proof. reflexivity. Qed.

Theorem C09_pn_prefix : forall (order l1 l2 : nat) (seed mask o1 o2 : list Z), (l1 <= l2)%nat ->
  pnsequence order seed mask l1 = Ok o1 -> pnsequence order seed mask l2 = Ok o2 -> o1 = firstn l1 o2.
Proof. exact pnsequence_prefix. Qed.
Print Assumptions C09_pn_prefix.
Example C09_prefix_witness : pnsequence 3 [1; 0; 1] [0; 1; 1] 2 = Ok [1; 0] /\ pnsequence 3 [1; 0; 1] [0; 1; 1] 5 = Ok [1; 0; 1; 1; 1].
Proof. split; reflexivity. Qed.

(* superposition: the sequence of the bitwise sum of two seeds is the bitwise sum of the sequences *)
Definition xor_lists (a b : list Z) : list Z := map (fun xy => (fst xy + snd xy) mod 2) (combine a b).

Theorem C09_pn_linear : forall (order len : nat) (s1 s2 mask o1 o2 : list Z),
  (1 <= order)%nat -> length mask = order -> bits s1 -> bits s2 -> bits mask ->
  pnsequence order s1 mask len = Ok o1 -> pnsequence order s2 mask len = Ok o2 ->
  pnsequence order (xor_lists s1 s2) mask len = Ok (xor_lists o1 o2).
Proof. exact pnsequence_linear. Qed.
Print Assumptions C09_pn_linear.
Example C09_linear_witness :
  pnsequence 3 [1; 0; 1] [0; 1; 1] 5 = Ok [1; 0; 1; 1; 1] /\ pnsequence 3 [1; 1; 0] [0; 1; 1] 5 = Ok [0; 1; 1; 1; 0] /\
  pnsequence 3 (xor_lists [1; 0; 1] [1; 1; 0]) [0; 1; 1] 5 = Ok [1; 1; 0; 0; 1].
Proof. repeat split. Qed.

(* ---------------------------------------------------------------- C10 *)
Theorem C10_pn_periodic : forall (order : nat) (seed mask : list Z),
  (1 <= order)%nat -> length seed = order -> length mask = order -> bits seed -> bits mask ->
  last mask 0 = 1 -> (exists i, nth i seed 0 = 1) ->
  exists p, (1 <= p <= 2 ^ order - 1)%nat /\
    forall len out t, pnsequence order seed mask len = Ok out -> (t + p < len)%nat -> nth (t + p) out 0 = nth t out 0.
Proof. exact pnsequence_period. Qed.
Print Assumptions C10_pn_periodic.
Example C10_witness : last [0; 0; 1; 1] 0 = 1 /\ (exists i, nth i [0; 1; 0; 0] 0 = 1) /\
  pnsequence 4 [0; 1; 0; 0] [0; 0; 1; 1] 20 = Ok [0; 0; 1; 0; 0; 1; 1; 0; 1; 0; 1; 1; 1; 1; 0; 0; 0; 1; 0; 0].
Proof. split; [reflexivity|]. split; [exists 1%nat; reflexivity|reflexivity]. Qed.

Theorem C10_zero_seed : forall (order len : nat) (mask out : list Z),
  (1 <= order)%nat -> length mask = order ->
  pnsequence order (repeat 0 order) mask len = Ok out -> out = repeat 0 len.
Proof. exact pnsequence_zero. Qed.
Print Assumptions C10_zero_seed.
Example C10_zero_witness : pnsequence 3 (repeat 0 3) [1; 0; 1] 4 = Ok [0; 0; 0; 0].
Proof. reflexivity. Qed.

(* If the last tap is 0 the sequence need not be periodic from the start. *)
Theorem C10_last_tap_needed_refuted :
  exists order seed mask, (1 <= order)%nat /\ length seed = order /\ length mask = order /\ bits seed /\ bits mask /\
    (exists i, nth i seed 0 = 1) /\
    forall p, (1 <= p)%nat -> exists len out, pnsequence order seed mask len = Ok out /\ (p < len)%nat /\ nth p out 0 <> nth 0 out 0.
Proof. exact pn_last_tap_needed. Qed.
Print Assumptions C10_last_tap_needed_refuted.

(* ---------------------------------------------------------------- C12 *)
Theorem C12_interleave_roundtrip : forall (A : Type) (zero : A) (p : list nat) (x : list A),
  is_perm (length x) p ->
  exists y, interlv p x = Ok y /\ Permutation x y /\ deinterlv zero p y = Ok x.
Proof. exact @interleave_roundtrip. Qed.
Print Assumptions C12_interleave_roundtrip.

Theorem C12_deinterleave_roundtrip : forall (A : Type) (zero : A) (p : list nat) (x : list A),
  is_perm (length x) p ->
  exists y, deinterlv zero p x = Ok y /\ length y = length x /\ interlv p y = Ok x.
Proof. exact @deinterleave_roundtrip. Qed.
Print Assumptions C12_deinterleave_roundtrip.
Example C12_witness : is_perm 4 [2; 0; 3; 1]%nat /\ interlv [2; 0; 3; 1]%nat [10; 20; 30; 40] = Ok [30; 10; 40; 20] /\
  deinterlv 0 [2; 0; 3; 1]%nat [30; 10; 40; 20] = Ok [10; 20; 30; 40].
Proof.
  split; [|split; reflexivity]. split; [reflexivity|]. split.
  - repeat constructor; cbn; intuition lia.
  - cbn. intros p H. intuition lia.
Qed.

(* the exact positions, and arrays whose length is not the interleaver's: a shorter one raises IndexError, the entries of
   a longer one beyond the interleaver's length are dropped by interlv and replaced by 0 by deinterlv *)
Theorem C12_positions_and_lengths : forall (A : Type) (zero : A) (N : nat) (p : list nat) (x : list A), is_perm N p ->
  ((length x < N)%nat -> interlv p x = Err IndexError /\ deinterlv zero p x = Err IndexError) /\
  ((N <= length x)%nat ->
     (exists y, interlv p x = Ok y /\ length y = N /\ forall i, (i < N)%nat -> nth i y zero = nth (nth i p 0%nat) x zero) /\
     (exists y, deinterlv zero p x = Ok y /\ length y = length x /\ (forall i, (i < N)%nat -> nth (nth i p 0%nat) y zero = nth i x zero) /\
        forall j, (N <= j)%nat -> nth j y zero = zero)).
Proof. exact @interleave_lengths. Qed.
Print Assumptions C12_positions_and_lengths.
Example C12_lengths_witness : interlv [2; 0; 1]%nat [10; 20] = Err IndexError /\ deinterlv 0 [2; 0; 1]%nat [10; 20] = Err IndexError /\
  interlv [2; 0; 1]%nat [10; 20; 30; 40; 50] = Ok [30; 10; 20] /\ deinterlv 0 [2; 0; 1]%nat [10; 20; 30; 40; 50] = Ok [20; 30; 10; 0; 0].
Proof. repeat split. Qed.

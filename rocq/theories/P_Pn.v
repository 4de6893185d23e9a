(* Property C66: maximal-length PN sequences (sequences.py pnsequence).  pn_params (PnMax.v): order >= 1, seed and
   mask are bit lists of length order, the last tap is 1 and the seed is not all zero.  maximal (PnMax.v): no
   p with 1 <= p < 2^order - 1 is a period of the generated sequence. *)
From Verif Require Import Base SeqModel PnMax.

(* ---------------------------------------------------------------- C66 *)
Theorem C66_exact_period : forall order seed mask, pn_params order seed mask -> maximal order seed mask ->
  forall len out t, pnsequence order seed mask len = Ok out -> (t + (2 ^ order - 1) < len)%nat -> nth (t + (2 ^ order - 1)) out 0 = nth t out 0.
Proof. exact pnmax_period. Qed.
Print Assumptions C66_exact_period.

(* each nonzero window of order bits occurs exactly once per period *)
Theorem C66_windows : forall order seed mask, pn_params order seed mask -> maximal order seed mask ->
  forall len out w, pnsequence order seed mask len = Ok out -> (2 ^ order - 1 + order - 1 <= len)%nat ->
    length w = order -> bits w -> w <> repeat 0 order ->
    exists t, (t < 2 ^ order - 1)%nat /\ slice out t (t + order) = w /\
      forall t', (t' < 2 ^ order - 1)%nat -> slice out t' (t' + order) = w -> t' = t.
Proof. exact pnmax_windows. Qed.
Print Assumptions C66_windows.

(* one more one than zeros in every period, wherever it starts *)
Theorem C66_balance : forall order seed mask, pn_params order seed mask -> maximal order seed mask ->
  forall len out a, pnsequence order seed mask len = Ok out -> (a + (2 ^ order - 1) <= len)%nat ->
    Zsum (slice out a (a + (2 ^ order - 1))) = 2 ^ (Z.of_nat order - 1).
Proof. exact pnmax_balance. Qed.
Print Assumptions C66_balance.

(* two-valued periodic autocorrelation of the antipodal sequence *)
Theorem C66_autocorrelation : forall order seed mask, pn_params order seed mask -> maximal order seed mask ->
  forall len out tau, pnsequence order seed mask len = Ok out -> (2 ^ order - 1 + tau <= len)%nat ->
    Zsum (map (fun t => (1 - 2 * nth t out 0) * (1 - 2 * nth (t + tau) out 0)) (seq 0 (2 ^ order - 1))) =
      if (tau mod (2 ^ order - 1) =? 0)%nat then 2 ^ Z.of_nat order - 1 else -1.
Proof. exact pnmax_autocorrelation. Qed.
Print Assumptions C66_autocorrelation.

(* maximality belongs to the mask: every other nonzero seed gives a shift of the same sequence *)
Theorem C66_any_seed : forall order seed mask, pn_params order seed mask -> maximal order seed mask ->
  forall seed', length seed' = order -> bits seed' -> (exists i, nth i seed' 0 = 1) ->
    maximal order seed' mask /\
    exists a, (a < 2 ^ order - 1)%nat /\ forall len out out' t, pnsequence order seed mask (a + len) = Ok out -> pnsequence order seed' mask len = Ok out' -> (t < len)%nat -> nth t out' 0 = nth (a + t) out 0.
Proof. exact pnmax_any_seed. Qed.
Print Assumptions C66_any_seed.

Example C66_witness : pn_params 4 [0; 1; 0; 0] [0; 0; 1; 1] /\ maximal 4 [0; 1; 0; 0] [0; 0; 1; 1] /\
  pnsequence 4 [0; 1; 0; 0] [0; 0; 1; 1] 20 = Ok [0; 0; 1; 0; 0; 1; 1; 0; 1; 0; 1; 1; 1; 1; 0; 0; 0; 1; 0; 0].
Proof.
  split; [|split; [|reflexivity]].
  - repeat split; try lia; try (repeat constructor; (left; reflexivity) || (right; reflexivity)). exists 1%nat. reflexivity.
  - intros p Hp. change (2 ^ 4 - 1)%nat with 15%nat in Hp. exists 40%nat. eexists.
    assert (H : forallb (fun p => existsb (fun t => negb (nth (t + p) (match pnsequence 4 [0; 1; 0; 0] [0; 0; 1; 1] 40 with Ok o => o | Err _ => [] end) 0 =?
      nth t (match pnsequence 4 [0; 1; 0; 0] [0; 0; 1; 1] 40 with Ok o => o | Err _ => [] end) 0)) (seq 0 20)) (seq 1 14) = true) by (vm_compute; reflexivity).
    rewrite forallb_forall in H. specialize (H p ltac:(apply in_seq; lia)). rewrite existsb_exists in H. destruct H as (t & Ht & Hd). apply in_seq in Ht.
    exists t. split; [vm_compute; reflexivity|]. split; [lia|]. apply negb_true_iff in Hd. apply Z.eqb_neq in Hd. exact Hd.
Qed.
(* a mask that is not maximal: x^4 + x^3 + x^2 + x + 1 has period 5 *)
Example C66_not_every_mask : pn_params 4 [0; 1; 0; 0] [1; 1; 1; 1] /\ pnsequence 4 [0; 1; 0; 0] [1; 1; 1; 1] 12 = Ok [0; 0; 1; 0; 1; 0; 0; 1; 0; 1; 0; 0].
Proof. split; [|reflexivity]. repeat split; try lia; try (repeat constructor; (left; reflexivity) || (right; reflexivity)). exists 1%nat. reflexivity. Qed.

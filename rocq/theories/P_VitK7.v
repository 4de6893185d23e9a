(* Property C65 for the 64-state code with generators 133 and 171 (octal), the code of 802.11 and of deep-space links
   (WifiSpec.v: rate_half g0 g1 MSB has memory 6 and two outputs; 91 = 0o133 and 121 = 0o171).
   Decoder and vocabulary as in P_Vit.v. *)
From Coq Require Import Reals.
From Verif Require Import Base UtilModel TrellisModel TrellisSpec FloatRate ConvProofs ViterbiModel ViterbiSpec WifiSpec ViterbiTop ViterbiK7.
Local Open Scope Z_scope.

(* ---------------------------------------------------------------- C65 *)

Theorem C65_code_133_171 :
forall (garbage : regs) (f : poly_format) (tr : Trellis) (msg coded received : list Z) gp (gs : nat -> scratch Z),
    f = MSB \/ f = LSB -> trellis_of garbage (rate_half 91 121 f) false = Ok tr -> shaped (rate_half 91 121 f) gs -> bits msg -> (16 <= length msg)%nat -> Z.of_nat (length msg) < 2 ^ 47 ->
    conv_encode msg tr Term None = Ok coded -> bits received -> length received = length coded ->
    (* at most four errors among any 94 consecutive bits, at most three among the last 24 *)
    (forall i, mismatches (slice received (2 * i) (2 * i + 94)) (slice coded (2 * i) (2 * i + 94)) <= 4) ->
    mismatches (skipn (length coded - 24) received) (skipn (length coded - 24) coded) <= 3 ->
    exists out caller, viterbi_decode Z.add Z.leb 0 hard received tr None gp gs = Ok (map Some out, caller) /\ length out = (length msg + 6)%nat /\
      firstn (length msg) out = msg.
Proof. exact C65_code_133_171_proof. Qed.
Print Assumptions C65_code_133_171.
(* a 16-bit message, four errors in the stream of 44 bits, three of them among the last 24: the decoder returns message and tail *)
Definition k7_msg := [1; 0; 1; 1; 0; 1; 0; 0; 1; 1; 1; 0; 1; 0; 1; 1].
Definition k7_flipped (is : list nat) (l : list Z) : list Z := map (fun p => if existsb (Nat.eqb (fst p)) is then 1 - snd p else snd p) (combine (seq 0 (length l)) l).
Example C65_code_133_171_witness : forall f, f = MSB \/ f = LSB -> exists tr coded caller, let gs := fun t => {| pmetrics := repeat (Some (Z.of_nat t)) 2; index_array := repeat (5, 9) 64 |} in let rc := k7_flipped [3; 22; 32; 43]%nat coded in
  trellis_of (fun _ _ => 7) (rate_half 91 121 f) false = Ok tr /\ shaped (rate_half 91 121 f) gs /\ bits k7_msg /\ conv_encode k7_msg tr Term None = Ok coded /\ length coded = 44%nat /\ bits rc /\
  (forall i, mismatches (slice rc (2 * i) (2 * i + 94)) (slice coded (2 * i) (2 * i + 94)) <= 4) /\ mismatches (skipn (length coded - 24) rc) (skipn (length coded - 24) coded) = 3 /\ mismatches rc coded = 4 /\
  viterbi_decode Z.add Z.leb 0 hard rc tr None (fun _ _ => 7) gs = Ok (map Some (k7_msg ++ repeat 0 6), caller).
Proof.
  assert (HW : forall u v, length u = 44%nat -> length v = 44%nat -> forallb (fun i => mismatches (slice u (2 * i) (2 * i + 94)) (slice v (2 * i) (2 * i + 94)) <=? 4) (seq 0 44) = true ->
    forall i, mismatches (slice u (2 * i) (2 * i + 94)) (slice v (2 * i) (2 * i + 94)) <= 4).
  { intros u v Lu Lv K i. destruct (Nat.lt_ge_cases i 44) as [L|L]; [|unfold slice at 1; rewrite skipn_all2 by lia; rewrite firstn_nil; unfold mismatches; cbn [combine filter length]; lia].
    rewrite forallb_forall in K. apply Z.leb_le. apply K. apply in_seq. lia. }
  intros f [-> | ->]; eexists; eexists; eexists; cbv zeta;
    (split; [vm_compute; reflexivity|]; split; [intros ?; split; reflexivity|]; split; [unfold k7_msg; bits_tac|]; split; [vm_compute; reflexivity|]; split; [vm_compute; reflexivity|]; split; [vm_compute; bits_tac|];
     split; [apply HW; vm_compute; reflexivity|]; split; [vm_compute; reflexivity|]; split; [vm_compute; reflexivity|]; vm_compute; reflexivity).
Qed.

(* Properties C29 - C33: viterbi_decode (convcode.py).  See ViterbiSpec.v for encoded, minimises, seen,
   mismatches, sqdist, nll, decodable, usable, steps.  gp and gs are the initial contents of the
   uninitialised arrays; the theorems hold for all of them.  Metrics are exact (integers, resp. reals). *)
From Coq Require Import Reals Lra.
From Verif Require Import Base UtilModel UtilProofs TrellisModel TrellisSpec FloatRate ConvProofs ConvMore ViterbiModel ViterbiReal ViterbiSpec ViterbiTop.

(* ---------------------------------------------------------------- C29 *)

Theorem C29_hard_window :
forall (garbage : regs) (C : code) (rsc : bool) (tr : Trellis) (coded : list Z) (B : nat) (tb_depth : option nat) gp (gs : nat -> scratch Z),
    trellis_of garbage C rsc = Ok tr -> decodable C B gs -> usable C B tb_depth -> bits coded -> length coded = (B * outs C)%nat ->
    exists (out caller : list Z) (survivor : nat -> list Z),
      viterbi_decode Z.add Z.leb 0 hard coded tr tb_depth gp gs = Ok (map Some out, caller) /\ length out = (B * kk C)%nat /\ bits out /\
      (forall tau, length (survivor tau) = tau /\ minimises Z.le tr (mismatches (seen (outs C) coded 0 tau)) (survivor tau)) /\
      forall b, (b < B)%nat ->
        slice out (b * kk C) ((b + 1) * kk C) = bits_msb (kk C) (nth b (survivor (Nat.min (steps C B) (b + depth C B tb_depth - 1))) 0).
Proof. exact C29_hard_window_proof. Qed.
Print Assumptions C29_hard_window.
Definition code75 := {| memory := [2%nat]; outs := 2; gens := [[5; 7]]; fback := None; fmt := MSB |}.
Definition code21 := {| memory := [2%nat; 1%nat]; outs := 3; gens := [[5; 7; 0]; [0; 2; 3]]; fback := None; fmt := MSB |}.
Definition no_garbage : regs := fun _ _ => 0.
Definition gp0 : nat -> nat -> Z := fun _ _ => 7.
Definition gs0 (a b : nat) : nat -> scratch Z := fun t => {| pmetrics := repeat (Some (Z.of_nat t)) a; index_array := repeat (5, 9) b |}.
Example C29_witness : decodable code75 6 (gs0 2 4) /\ usable code75 6 None /\ usable code75 6 (Some 3%nat) /\ decodable code21 4 (gs0 4 8) /\ usable code21 4 (Some 3%nat) /\
  (exists tr, trellis_of no_garbage code75 false = Ok tr /\
     (* one transmission error is corrected *)
     viterbi_decode Z.add Z.leb 0 hard [1; 1; 0; 1; 1; 0; 1; 0; 1; 0; 0; 0] tr None gp0 (gs0 2 4) =
       Ok (map Some [1; 0; 1; 1; 0; 1], [1; 1; 0; 1; 1; 0; 1; 0; 1; 0; 0; 0])).
Proof.
  assert (W : well_formed code75 /\ well_formed code21) by (split; apply wf_check_ok; reflexivity). destruct W as [W1 W2].
  split; [dec_tac|].
  split; [vm_compute; lia|]. split; [vm_compute; lia|].
  split; [dec_tac|]. split; [vm_compute; lia|].
  eexists. split; [vm_compute; reflexivity|]. vm_compute. reflexivity.
Qed.

Theorem C29_hard_ties :
forall (garbage : regs) (C : code) (rsc : bool) (tr : Trellis) (coded : list Z) (B : nat) (tb_depth : option nat) gp (gs : nat -> scratch Z),
    trellis_of garbage C rsc = Ok tr -> decodable C B gs -> usable C B tb_depth -> bits coded -> length coded = (B * outs C)%nat ->
    exists (out caller : list Z) (survivor : nat -> list Z),
      viterbi_decode Z.add Z.leb 0 hard coded tr tb_depth gp gs = Ok (map Some out, caller) /\ length out = (B * kk C)%nat /\ bits out /\
      (forall tau, length (survivor tau) = tau /\ minimises Z.le tr (mismatches (seen (outs C) coded 0 tau)) (survivor tau)) /\
      (forall b, (b < B)%nat ->
        slice out (b * kk C) ((b + 1) * kk C) = bits_msb (kk C) (nth b (survivor (Nat.min (steps C B) (b + depth C B tb_depth - 1))) 0)) /\
      forall tau us', length us' = tau -> inputs (kk C) us' -> walk (entry (tr_next tr)) 0 us' = 0 -> walk (entry (tr_next tr)) 0 (survivor tau) <> 0 ->
        mismatches (seen (outs C) coded 0 tau) (encoded tr (survivor tau)) < mismatches (seen (outs C) coded 0 tau) (encoded tr us').
Proof. exact C29_hard_ties_proof. Qed.
Print Assumptions C29_hard_ties.
(* the hypotheses are those of C29_hard_window *)
Example C29_hard_ties_witness : decodable code75 6 (gs0 2 4) /\ usable code75 6 None.
Proof. split; [dec_tac|vm_compute; lia]. Qed.

Theorem C29_hard_maximum_likelihood :
forall (garbage : regs) (C : code) (rsc : bool) (tr : Trellis) (coded : list Z) (B : nat) gp (gs : nat -> scratch Z),
    trellis_of garbage C rsc = Ok tr -> decodable C B gs -> usable C B (Some (steps C B + 1)%nat) -> bits coded -> length coded = (B * outs C)%nat ->
    exists (us caller : list Z), length us = steps C B /\
      viterbi_decode Z.add Z.leb 0 hard coded tr (Some (steps C B + 1)%nat) gp gs = Ok (map Some (firstn (B * kk C) (bitstream (kk C) us)), caller) /\
      minimises Z.le tr (mismatches (coded ++ repeat 0 ((steps C B - B) * outs C))) us.
Proof. exact C29_hard_maximum_likelihood_proof. Qed.
Print Assumptions C29_hard_maximum_likelihood.
Example C29_ml_witness : decodable code75 5 (gs0 2 4) /\ steps code75 5 = 6%nat /\
  (exists tr, trellis_of no_garbage code75 false = Ok tr /\
     viterbi_decode Z.add Z.leb 0 hard [1; 0; 0; 1; 1; 0; 0; 0; 1; 1] tr (Some 7%nat) gp0 (gs0 2 4) = Ok (map Some [1; 0; 1; 0; 0], [1; 0; 0; 1; 1; 0; 0; 0; 0; 0])).
Proof.
  split; [dec_tac|]. split; [reflexivity|].
  eexists. split; [vm_compute; reflexivity|]. vm_compute. reflexivity.
Qed.

Theorem C29_unquantized_window :
forall (garbage : regs) (C : code) (rsc : bool) (tr : Trellis) (coded : list R) (B : nat) (tb_depth : option nat) gp (gs : nat -> scratch R),
    trellis_of garbage C rsc = Ok tr -> decodable C B gs -> usable C B tb_depth -> length coded = (B * outs C)%nat ->
    exists (out : list Z) (caller : list R) (survivor : nat -> list Z),
      viterbi_decode Rplus Rleb 0%R unquantized coded tr tb_depth gp gs = Ok (map Some out, caller) /\ length out = (B * kk C)%nat /\ bits out /\
      (forall tau, length (survivor tau) = tau /\ minimises Rle tr (sqdist (seen (outs C) coded (-1)%R tau)) (survivor tau)) /\
      forall b, (b < B)%nat ->
        slice out (b * kk C) ((b + 1) * kk C) = bits_msb (kk C) (nth b (survivor (Nat.min (steps C B) (b + depth C B tb_depth - 1))) 0).
Proof. exact C29_unquantized_window_proof. Qed.
Print Assumptions C29_unquantized_window.
Definition gsR (a b : nat) : nat -> scratch R := fun t => {| pmetrics := repeat (Some (INR t)) a; index_array := repeat (5, 9) b |}.
Example C29_unquantized_witness : decodable code75 6 (gsR 2 4) /\ usable code75 6 (Some 3%nat) /\ exists tr, trellis_of no_garbage code75 false = Ok tr.
Proof. split; [dec_tac|]. split; [vm_compute; lia|]. eexists. vm_compute. reflexivity. Qed.

Theorem C29_soft_window :
forall (garbage : regs) (C : code) (rsc : bool) (tr : Trellis) (coded : list R) (B : nat) (tb_depth : option nat) gp (gs : nat -> scratch R),
    trellis_of garbage C rsc = Ok tr -> decodable C B gs -> usable C B tb_depth -> length coded = (B * outs C)%nat ->
    let clipped := map (fun x => Rmax (-500) (Rmin x 500)) coded in
    exists (out : list Z) (caller : list R) (survivor : nat -> list Z),
      viterbi_decode Rplus Rleb 0%R soft coded tr tb_depth gp gs = Ok (map Some out, caller) /\ length out = (B * kk C)%nat /\ bits out /\
      (forall tau, length (survivor tau) = tau /\ minimises Rle tr (nll (seen (outs C) clipped 0%R tau)) (survivor tau)) /\
      forall b, (b < B)%nat ->
        slice out (b * kk C) ((b + 1) * kk C) = bits_msb (kk C) (nth b (survivor (Nat.min (steps C B) (b + depth C B tb_depth - 1))) 0).
Proof. exact C29_soft_window_proof. Qed.
Print Assumptions C29_soft_window.
Example C29_soft_witness : decodable code21 4 (gsR 4 8) /\ usable code21 4 (Some 3%nat) /\ exists tr, trellis_of no_garbage code21 false = Ok tr.
Proof. split; [dec_tac|]. split; [vm_compute; lia|]. eexists. vm_compute. reflexivity. Qed.

(* ---------------------------------------------------------------- C30 *)

Theorem C30_hard_terminated :
forall (garbage : regs) (C : code) (rsc : bool) (tr : Trellis) (us : list Z) (tb_depth : option nat) gp (gs : nat -> scratch Z),
    trellis_of garbage C rsc = Ok tr -> decodable C (length us) gs -> usable C (length us) tb_depth -> output_injective C ->
    inputs (kk C) us -> walk (entry (tr_next tr)) 0 us = 0 ->
    exists caller, viterbi_decode Z.add Z.leb 0 hard (encoded tr us) tr tb_depth gp gs = Ok (map Some (bitstream (kk C) us), caller).
Proof. exact C30_hard_terminated_proof. Qed.
Print Assumptions C30_hard_terminated.
Lemma inj75 : output_injective code75.
Proof.
  intros u u' Hu Hu' H. specialize (H 0%nat ltac:(cbn; lia)). change (2 ^ Z.of_nat (kk code75)) with 2 in *.
  assert (u = 0 \/ u = 1) as [-> | ->] by lia; assert (u' = 0 \/ u' = 1) as [-> | ->] by lia; try reflexivity; vm_compute in H; discriminate.
Qed.
Example C30_witness : decodable code75 6 (gs0 2 4) /\ usable code75 6 (Some 2%nat) /\ output_injective code75 /\
  (exists tr, trellis_of no_garbage code75 false = Ok tr /\ walk (entry (tr_next tr)) 0 [1; 0; 1; 1; 0; 0] = 0 /\
    viterbi_decode Z.add Z.leb 0 hard (encoded tr [1; 0; 1; 1; 0; 0]) tr (Some 2%nat) gp0 (gs0 2 4) = Ok (map Some [1; 0; 1; 1; 0; 0], [1; 1; 0; 1; 0; 0; 1; 0; 1; 0; 0; 0])).
Proof.
  split; [dec_tac|].
  split; [vm_compute; lia|]. split; [exact inj75|]. eexists. split; [vm_compute; reflexivity|]. split; vm_compute; reflexivity.
Qed.

Theorem C30_round_trip :
forall (garbage : regs) (C : code) (tr : Trellis) (msg coded : list Z) (B : nat) (tb_depth : option nat) gp (gs : nat -> scratch Z),
    trellis_of garbage C false = Ok tr -> fback C = None -> decodable C B gs -> usable C B tb_depth -> output_injective C -> rate_ok (kk C) (outs C) = true ->
    Z.of_nat (length msg + 2 * MM C) * Z.of_nat (outs C) < 2 ^ 49 ->
    bits msg -> (length msg + MM C + MM C mod kk C = B * kk C)%nat -> (max_mem (memory C) * kk C <= MM C + MM C mod kk C)%nat ->
    conv_encode msg tr Term None = Ok coded ->
    exists caller, viterbi_decode Z.add Z.leb 0 hard coded tr tb_depth gp gs = Ok (map Some (msg ++ repeat 0 (MM C + MM C mod kk C)), caller).
Proof. exact C30_round_trip_proof. Qed.
Print Assumptions C30_round_trip.
Example C30_round_trip_witness : rate_ok 1 2 = true /\ (length [1; 1; 0; 1] + MM code75 + MM code75 mod kk code75 = 6 * kk code75)%nat /\ (max_mem (memory code75) * kk code75 <= MM code75 + MM code75 mod kk code75)%nat /\
  (exists tr, trellis_of no_garbage code75 false = Ok tr /\ conv_encode [1; 1; 0; 1] tr Term None = Ok [1; 1; 1; 0; 1; 0; 0; 0; 0; 1; 1; 1] /\
    viterbi_decode Z.add Z.leb 0 hard [1; 1; 1; 0; 1; 0; 0; 0; 0; 1; 1; 1] tr None gp0 (gs0 2 4) = Ok (map Some [1; 1; 0; 1; 0; 0], [1; 1; 1; 0; 1; 0; 0; 0; 0; 1; 0; 0])).
Proof.
  split; [reflexivity|]. split; [reflexivity|]. split; [vm_compute; lia|]. eexists. split; [vm_compute; reflexivity|]. split; vm_compute; reflexivity.
Qed.

Theorem C30_cont_prefix :
forall (garbage : regs) (C : code) (rsc : bool) (tr : Trellis) (us : list Z) (tb_depth : option nat) gp (gs : nat -> scratch Z) (b : nat),
    trellis_of garbage C rsc = Ok tr -> decodable C (length us) gs -> usable C (length us) tb_depth -> output_injective C -> inputs (kk C) us ->
    (b + depth C (length us) tb_depth - 1 <= length us)%nat ->
    exists out caller, viterbi_decode Z.add Z.leb 0 hard (encoded tr us) tr tb_depth gp gs = Ok (map Some out, caller) /\
      slice out (b * kk C) ((b + 1) * kk C) = bits_msb (kk C) (nth b us 0).
Proof. exact C30_cont_prefix_proof. Qed.
Print Assumptions C30_cont_prefix.
Example C30_cont_witness : usable code75 6 (Some 3%nat) /\ (4 + depth code75 6 (Some 3%nat) - 1 <= 6)%nat.
Proof. split; vm_compute; lia. Qed.

Theorem C30_cont_refuted :
exists (C : code) (tr : Trellis) (msg coded : list Z) (gs : nat -> scratch Z), decodable C (length msg) gs /\ usable C (length msg) None /\ output_injective C /\
    trellis_of (fun _ _ => 0) C false = Ok tr /\ bits msg /\ conv_encode msg tr Cont None = Ok coded /\
    exists caller, viterbi_decode Z.add Z.leb 0 hard coded tr None (fun _ _ => 0) gs = Ok (map Some [0; 0; 0; 0; 0; 0; 0; 0], caller) /\ msg = [0; 0; 0; 0; 0; 0; 0; 1].
Proof. exact C30_cont_refuted_proof. Qed.
Print Assumptions C30_cont_refuted.

Theorem C30_unquantized_signs :
forall (garbage : regs) (C : code) (rsc : bool) (tr : Trellis) (us : list Z) (received : list R) (tb_depth : option nat) gp (gs : nat -> scratch R),
    trellis_of garbage C rsc = Ok tr -> decodable C (length us) gs -> usable C (length us) tb_depth -> output_injective C ->
    inputs (kk C) us -> walk (entry (tr_next tr)) 0 us = 0 -> Forall2 carries received (encoded tr us) ->
    exists caller, viterbi_decode Rplus Rleb 0%R unquantized received tr tb_depth gp gs = Ok (map Some (bitstream (kk C) us), caller).
Proof. exact C30_unquantized_signs_proof. Qed.
Print Assumptions C30_unquantized_signs.
Example C30_unquantized_witness : Forall2 carries [0.5; -2; 3]%R [1; 0; 1] /\ decodable code75 6 (gsR 2 4) /\ output_injective code75.
Proof.
  split; [repeat (apply Forall2_cons; [|]); try apply Forall2_nil; unfold carries; first [left; split; [reflexivity|lra]|right; split; [reflexivity|lra]]|].
  split; [dec_tac|exact inj75].
Qed.

Theorem C30_soft_signs :
forall (garbage : regs) (C : code) (rsc : bool) (tr : Trellis) (us : list Z) (received : list R) (tb_depth : option nat) gp (gs : nat -> scratch R),
    trellis_of garbage C rsc = Ok tr -> decodable C (length us) gs -> usable C (length us) tb_depth -> output_injective C ->
    inputs (kk C) us -> Forall2 carries received (encoded tr us) ->
    exists caller, viterbi_decode Rplus Rleb 0%R soft received tr tb_depth gp gs = Ok (map Some (bitstream (kk C) us), caller).
Proof. exact C30_soft_signs_proof. Qed.
Print Assumptions C30_soft_signs.
Example C30_soft_witness : Forall2 carries [0.5; -2; 3]%R [1; 0; 1] /\ usable code75 6 None /\ inputs (kk code75) [1; 0; 1; 1; 0; 1].
Proof.
  split; [repeat (apply Forall2_cons; [|]); try apply Forall2_nil; unfold carries; first [left; split; [reflexivity|lra]|right; split; [reflexivity|lra]]|].
  split; [vm_compute; lia|]. repeat constructor; vm_compute; congruence.
Qed.

(* ---------------------------------------------------------------- C31 *)

Theorem C31_hard_overwrites :
forall (garbage : regs) (C : code) (rsc : bool) (tr : Trellis) (coded : list Z) (B : nat) (tb_depth : option nat) gp (gs : nat -> scratch Z),
    trellis_of garbage C rsc = Ok tr -> decodable C B gs -> usable C B tb_depth -> bits coded -> length coded = (B * outs C)%nat -> (1 <= B)%nat ->
    exists out caller, viterbi_decode Z.add Z.leb 0 hard coded tr tb_depth gp gs = Ok (out, caller) /\
      ((MM C < 2 * kk C)%nat -> caller = coded) /\
      ((2 * kk C <= MM C)%nat -> caller = firstn ((B - 1) * outs C) coded ++ repeat 0 (outs C)).
Proof. exact C31_hard_overwrites_proof. Qed.
Print Assumptions C31_hard_overwrites.
Example C31_witness : (2 * kk code75 <= MM code75)%nat /\ (MM code21 < 2 * kk code21)%nat.
Proof. vm_compute. lia. Qed.

Theorem C31_unquantized_overwrites :
forall (garbage : regs) (C : code) (rsc : bool) (tr : Trellis) (coded : list R) (B : nat) (tb_depth : option nat) gp (gs : nat -> scratch R),
    trellis_of garbage C rsc = Ok tr -> decodable C B gs -> usable C B tb_depth -> length coded = (B * outs C)%nat -> (1 <= B)%nat ->
    exists out caller, viterbi_decode Rplus Rleb 0%R unquantized coded tr tb_depth gp gs = Ok (out, caller) /\
      ((MM C < 2 * kk C)%nat -> caller = coded) /\
      ((2 * kk C <= MM C)%nat -> caller = firstn ((B - 1) * outs C) coded ++ repeat (-1)%R (outs C)).
Proof. exact C31_unquantized_overwrites_proof. Qed.
Print Assumptions C31_unquantized_overwrites.
Example C31_unquantized_witness : decodable code75 6 (gsR 2 4) /\ usable code75 6 (Some 3%nat).
Proof. split; [dec_tac|vm_compute; lia]. Qed.

Theorem C31_soft_untouched :
forall (tr : Trellis) (coded : list R) (tb_depth : option nat) gp (gs : nat -> scratch R) out caller,
    viterbi_decode Rplus Rleb 0%R soft coded tr tb_depth gp gs = Ok (out, caller) -> caller = coded.
Proof. exact C31_soft_untouched_proof. Qed.
Print Assumptions C31_soft_untouched.
Example C31_soft_witness : exists tr out caller, trellis_of no_garbage code75 false = Ok tr /\
  viterbi_decode Rplus Rleb 0%R soft [1; 1; -1; 1; -1; -1; 1; -1; 1; -1; -1; -1]%R tr None gp0 (gsR 2 4) = Ok (out, caller).
Proof.
  destruct (trellis_of no_garbage code75 false) as [tr|e] eqn:E; [|vm_compute in E; discriminate]. exists tr.
  destruct (C29_soft_window_proof no_garbage code75 false tr [1; 1; -1; 1; -1; -1; 1; -1; 1; -1; -1; -1]%R 6 None gp0 (gsR 2 4) E) as (out & caller & sv & H & _).
  - dec_tac.
  - vm_compute; lia.
  - reflexivity.
  - eexists. eexists. split; [reflexivity|exact H].
Qed.

(* ---------------------------------------------------------------- C32 *)

Theorem C32_rate_1_n_default_depth :
forall (garbage : regs) (C : code) (rsc : bool) (tr : Trellis) (coded : list Z) (B : nat) gp (gs : nat -> scratch Z),
    trellis_of garbage C rsc = Ok tr -> decodable C B gs -> kk C = 1%nat -> (2 <= B)%nat -> (MM C <= B + 1)%nat -> bits coded -> length coded = (B * outs C)%nat ->
    exists out caller, viterbi_decode Z.add Z.leb 0 hard coded tr None gp gs = Ok (map Some out, caller) /\ length out = B /\ bits out.
Proof. exact C32_rate_1_n_default_depth_proof. Qed.
Print Assumptions C32_rate_1_n_default_depth.
Example C32_default_witness : decodable code75 6 (gs0 2 4) /\ kk code75 = 1%nat /\ (MM code75 <= 6 + 1)%nat.
Proof. split; [dec_tac|]. split; [reflexivity|vm_compute; lia]. Qed.

Theorem C32_nothing_written :
forall (garbage : regs) (C : code) (rsc : bool) (tr : Trellis) (coded : list Z) (B : nat) (tb_depth : option nat) gp (gs : nat -> scratch Z),
    trellis_of garbage C rsc = Ok tr -> decodable C B gs -> length coded = (B * outs C)%nat ->
    (2 <= depth C B tb_depth)%nat -> (MM C <= depth C B tb_depth + kk C)%nat -> (steps C B + 1 < depth C B tb_depth)%nat ->
    exists caller, viterbi_decode Z.add Z.leb 0 hard coded tr tb_depth gp gs = Ok (repeat None (B * kk C), caller).
Proof. exact C32_nothing_written_proof. Qed.
Print Assumptions C32_nothing_written.
(* the default depth of a rate 2/3 code on 4 received words: the returned array is uninitialised memory *)
Example C32_nothing_witness : decodable code21 4 (gs0 4 8) /\ depth code21 4 None = 8%nat /\ (steps code21 4 + 1 < 8)%nat /\
  (exists tr, trellis_of no_garbage code21 false = Ok tr /\
     viterbi_decode Z.add Z.leb 0 hard [1; 1; 1; 1; 1; 0; 1; 1; 1; 1; 1; 0] tr None gp0 (gs0 4 8) = Ok (repeat None 8, [1; 1; 1; 1; 1; 0; 1; 1; 1; 1; 1; 0])).
Proof.
  split; [dec_tac|]. split; [reflexivity|]. split; [vm_compute; lia|].
  eexists. split; [vm_compute; reflexivity|]. vm_compute. reflexivity.
Qed.

Theorem C32_default_depth_refuted :
exists (C : code) (tr : Trellis) (msg coded : list Z) (caller : list Z) (gs : nat -> scratch Z), decodable C 4 gs /\ trellis_of (fun _ _ => 0) C false = Ok tr /\
    bits msg /\ conv_encode msg tr Term None = Ok coded /\
    viterbi_decode Z.add Z.leb 0 hard coded tr None (fun _ _ => 0) gs = Ok (repeat None 8, caller).
Proof. exact C32_default_depth_refuted_proof. Qed.
Print Assumptions C32_default_depth_refuted.

Theorem C32_depth_too_small :
forall (garbage : regs) (C : code) (rsc : bool) (tr : Trellis) (coded : list Z) (B : nat) (tb_depth : option nat) gp (gs : nat -> scratch Z),
    trellis_of garbage C rsc = Ok tr -> decodable C B gs -> length coded = (B * outs C)%nat -> (1 <= B)%nat -> (depth C B tb_depth <= 1)%nat ->
    viterbi_decode Z.add Z.leb 0 hard coded tr tb_depth gp gs = Err IndexError.
Proof. exact C32_depth_too_small_proof. Qed.
Print Assumptions C32_depth_too_small.
Example C32_small_witness : decodable code75 6 (gs0 2 4) /\ (depth code75 6 (Some 1%nat) <= 1)%nat /\ (depth code75 1 None <= 1)%nat.
Proof. split; [dec_tac|]. split; vm_compute; lia. Qed.

Theorem C32_more_inputs_than_states :
forall (garbage : regs) (C : code) (rsc : bool) (tr : Trellis) (coded : list Z) (B : nat) (tb_depth : option nat) gp (gs : nat -> scratch Z),
    trellis_of garbage C rsc = Ok tr -> well_formed C -> fback C = None \/ input_injective C -> (1 <= outs C)%nat -> (MM C < kk C)%nat ->
    mul_ok (kk C) (outs C) = true -> Z.of_nat (kk C) * Z.of_nat B < 2 ^ 49 -> shaped C gs -> length coded = (B * outs C)%nat -> (2 <= B)%nat ->
    viterbi_decode Z.add Z.leb 0 hard coded tr tb_depth gp gs = Err IndexError.
Proof. exact C32_more_inputs_than_states_proof. Qed.
Print Assumptions C32_more_inputs_than_states.
Definition code_wide := {| memory := [0%nat; 1%nat]; outs := 3; gens := [[1; 0; 1]; [0; 1; 3]]; fback := None; fmt := MSB |}.
Example C32_wide_witness : well_formed code_wide /\ (MM code_wide < kk code_wide)%nat /\ mul_ok 2 3 = true /\ shaped code_wide (gs0 4 2).
Proof. split; [apply wf_check_ok; reflexivity|]. split; [vm_compute; lia|]. split; [reflexivity|]. intros t. split; reflexivity. Qed.

(* ---------------------------------------------------------------- C33 *)

Theorem C33_unknown_type :
forall (A X : Type) (add : A -> A -> A) (leb : A -> A -> bool) (zero : A) (garbage : regs) (C : code) (rsc : bool) (tr : Trellis) (coded : list X) (B : nat)
         (tb_depth : option nat) gp (gs : nat -> scratch A),
    trellis_of garbage C rsc = Ok tr -> decodable C B gs -> length coded = (B * outs C)%nat -> (1 <= B)%nat -> (1 <= depth C B tb_depth)%nat ->
    viterbi_decode add leb zero unknown_type coded tr tb_depth gp gs = Err TypeError.
Proof. exact C33_unknown_type_proof. Qed.
Print Assumptions C33_unknown_type.
Example C33_witness : decodable code75 6 (gs0 2 4) /\ (1 <= depth code75 6 None)%nat.
Proof. split; [dec_tac|vm_compute; lia]. Qed.

(* ---------------------------------------------------------------- C65 *)

Theorem C65_symbol_corrected :
forall (garbage : regs) (C : code) (rsc : bool) (tr : Trellis) (us received : list Z) (tb_depth : option nat) gp (gs : nat -> scratch Z) (b : nat),
    trellis_of garbage C rsc = Ok tr -> decodable C (length us) gs -> usable C (length us) tb_depth -> inputs (kk C) us ->
    bits received -> length received = (length us * outs C)%nat -> (b < length us)%nat ->
    let tau := Nat.min (steps C (length us)) (b + depth C (length us) tb_depth - 1) in
    (tau <= length us)%nat \/ walk (entry (tr_next tr)) 0 us = 0 ->
    (forall e, length e = tau -> inputs (kk C) e -> nth b e 0 <> 0 ->
       2 * mismatches (firstn (tau * outs C) received) (firstn (tau * outs C) (encoded tr us)) < weight (encoded tr e)) ->
    exists out caller, viterbi_decode Z.add Z.leb 0 hard received tr tb_depth gp gs = Ok (map Some out, caller) /\ length out = (length us * kk C)%nat /\
      slice out (b * kk C) ((b + 1) * kk C) = bits_msb (kk C) (nth b us 0).
Proof. exact C65_symbol_corrected_proof. Qed.
Print Assumptions C65_symbol_corrected.

Theorem C65_corrects_errors :
forall (garbage : regs) (C : code) (rsc : bool) (tr : Trellis) (us received : list Z) (tb_depth : option nat) gp (gs : nat -> scratch Z) (d : Z),
    trellis_of garbage C rsc = Ok tr -> decodable C (length us) gs -> usable C (length us) tb_depth -> inputs (kk C) us -> walk (entry (tr_next tr)) 0 us = 0 ->
    window_distance C tr (length us) tb_depth d ->
    bits received -> length received = (length us * outs C)%nat -> 2 * mismatches received (encoded tr us) < d ->
    exists caller, viterbi_decode Z.add Z.leb 0 hard received tr tb_depth gp gs = Ok (map Some (bitstream (kk C) us), caller).
Proof. exact C65_corrects_errors_proof. Qed.
Print Assumptions C65_corrects_errors.
(* the 4-state (5,7) code: every nonzero symbol costs weight 3 in its window of an 8-word block *)
Fixpoint words (k t : nat) : list (list Z) := match t with O => [[]] | S t' => concat (map (fun u => map (cons (Z.of_nat u)) (words k t')) (seq 0 (2 ^ k))) end.
Lemma words_all k t : forall e, length e = t -> inputs k e -> In e (words k t).
Proof.
  induction t as [|t IH]; intros [|u e] HL Hi; try discriminate; [left; reflexivity|]. cbn [words]. apply in_concat. inversion Hi; subst.
  exists (map (cons u) (words k t)). split; [|apply in_map; apply IH; [injection HL; auto|assumption]].
  apply in_map_iff. exists (Z.to_nat u). split; [rewrite Z2Nat.id by lia; reflexivity|]. apply in_seq. split; [lia|]. cbn [Nat.add].
  apply Nat2Z.inj_lt. rewrite Z2Nat.id by lia. rewrite Nat2Z.inj_pow. lia.
Qed.
Definition window_check (C : code) (tr : Trellis) (B : nat) (o : option nat) (d : Z) : bool :=
  forallb (fun b => forallb (fun e => (nth b e 0 =? 0) || (d <=? weight (encoded tr e))) (words (kk C) (Nat.min (steps C B) (b + depth C B o - 1)))) (seq 0 B).
Lemma window_check_ok C tr B o d : window_check C tr B o d = true -> window_distance C tr B o d.
Proof.
  intros H b e Hb He1 He2 He3. unfold window_check in H. rewrite forallb_forall in H. specialize (H b (proj2 (in_seq B 0 b) (conj (Nat.le_0_l b) Hb))).
  rewrite forallb_forall in H. specialize (H e (words_all (kk C) _ e He1 He2)). apply orb_prop in H. destruct H as [H|H]; [apply Z.eqb_eq in H; contradiction|apply Z.leb_le; exact H].
Qed.
Example C65_witness : exists tr, trellis_of no_garbage code75 false = Ok tr /\ decodable code75 8 (gs0 2 4) /\ usable code75 8 None /\ window_distance code75 tr 8 None 3 /\
  walk (entry (tr_next tr)) 0 [1; 0; 1; 1; 0; 1; 0; 0] = 0 /\ 2 * mismatches [1; 1; 0; 1; 0; 0; 1; 1; 1; 0; 0; 0; 0; 1; 1; 1] (encoded tr [1; 0; 1; 1; 0; 1; 0; 0]) < 3 /\
  mismatches [1; 1; 0; 1; 0; 0; 1; 1; 1; 0; 0; 0; 0; 1; 1; 1] (encoded tr [1; 0; 1; 1; 0; 1; 0; 0]) = 1.
Proof.
  eexists. split; [vm_compute; reflexivity|]. split; [dec_tac|]. split; [vm_compute; lia|]. split; [apply window_check_ok; vm_compute; reflexivity|].
  split; [vm_compute; reflexivity|]. split; vm_compute; reflexivity.
Qed.

Theorem C65_end_to_end :
forall (garbage : regs) (C : code) (tr : Trellis) (msg coded received : list Z) (B : nat) (tb_depth : option nat) gp (gs : nat -> scratch Z) (d : Z),
    trellis_of garbage C false = Ok tr -> fback C = None -> decodable C B gs -> usable C B tb_depth -> rate_ok (kk C) (outs C) = true ->
    Z.of_nat (length msg + 2 * MM C) * Z.of_nat (outs C) < 2 ^ 49 ->
    bits msg -> (length msg + MM C + MM C mod kk C = B * kk C)%nat -> (max_mem (memory C) * kk C <= MM C + MM C mod kk C)%nat ->
    conv_encode msg tr Term None = Ok coded ->
    window_distance C tr B tb_depth d -> bits received -> length received = length coded -> 2 * mismatches received coded < d ->
    exists caller, viterbi_decode Z.add Z.leb 0 hard received tr tb_depth gp gs = Ok (map Some (msg ++ repeat 0 (MM C + MM C mod kk C)), caller).
Proof. exact C65_end_to_end_proof. Qed.
Print Assumptions C65_end_to_end.
(* the example again, now from the message: one flipped bit, and the decoder returns message and tail *)
Example C65_end_to_end_witness : exists tr, trellis_of no_garbage code75 false = Ok tr /\ decodable code75 8 (gs0 2 4) /\ usable code75 8 None /\ window_distance code75 tr 8 None 3 /\
  conv_encode [1; 0; 1; 1; 0; 1] tr Term None = Ok [1; 1; 0; 1; 0; 0; 1; 0; 1; 0; 0; 0; 0; 1; 1; 1] /\
  viterbi_decode Z.add Z.leb 0 hard [1; 1; 0; 1; 0; 0; 1; 1; 1; 0; 0; 0; 0; 1; 1; 1] tr None gp0 (gs0 2 4) = Ok (map Some [1; 0; 1; 1; 0; 1; 0; 0], [1; 1; 0; 1; 0; 0; 1; 1; 1; 0; 0; 0; 0; 1; 0; 0]).
Proof.
  eexists. split; [vm_compute; reflexivity|]. split; [dec_tac|]. split; [vm_compute; lia|]. split; [apply window_check_ok; vm_compute; reflexivity|]. split; vm_compute; reflexivity.
Qed.

Theorem C65_sparse_errors :
forall (garbage : regs) (C : code) (rsc : bool) (tr : Trellis) (us received : list Z) (tb_depth : option nat) gp (gs : nat -> scratch Z) (b : nat),
    trellis_of garbage C rsc = Ok tr -> decodable C (length us) gs -> usable C (length us) tb_depth -> inputs (kk C) us ->
    bits received -> length received = (length us * outs C)%nat -> (b < length us)%nat ->
    let tau := Nat.min (steps C (length us)) (b + depth C (length us) tb_depth - 1) in let next := entry (tr_next tr) in
    (tau <= length us)%nat \/ walk next 0 us = 0 ->
    (forall (a c : nat) e, (a <= b < c)%nat -> (c <= tau)%nat -> length e = (c - a)%nat -> inputs (kk C) e -> nth (b - a) e 0 <> 0 ->
       (forall i, (0 < i < c - a)%nat -> walk next 0 (firstn i e) <> 0) -> ((c < tau)%nat -> walk next 0 e = 0) ->
       let errors := mismatches (slice received (a * outs C) (c * outs C)) (slice (encoded tr us) (a * outs C) (c * outs C)) in
       2 * errors < weight (encoded tr e) \/
       (c = tau /\ (length us <= tau)%nat /\ walk next 0 us = 0 /\ walk next 0 e <> 0 /\ 2 * errors <= weight (encoded tr e))) ->
    exists out caller, viterbi_decode Z.add Z.leb 0 hard received tr tb_depth gp gs = Ok (map Some out, caller) /\ length out = (length us * kk C)%nat /\
      slice out (b * kk C) ((b + 1) * kk C) = bits_msb (kk C) (nth b us 0).
Proof. exact C65_sparse_errors_proof. Qed.
Print Assumptions C65_sparse_errors.
(* two errors in an eight-word block of the (5,7) code, bit 0 and bit 9 of the stream: the distance 3 of the block promises nothing, but no excursion sees both *)
Definition sparse_check (C : code) (tr : Trellis) (us received : list Z) (tau b : nat) : bool :=
  let next := entry (tr_next tr) in
  forallb (fun a => forallb (fun c => forallb (fun e => (nth (b - a) e 0 =? 0) || existsb (fun i => walk next 0 (firstn i e) =? 0) (seq 1 (c - a - 1)) || ((c <? tau)%nat && negb (walk next 0 e =? 0)) ||
      (2 * mismatches (slice received (a * outs C) (c * outs C)) (slice (encoded tr us) (a * outs C) (c * outs C)) <? weight (encoded tr e)))
    (words (kk C) (c - a))) (seq (S b) (tau - b))) (seq 0 (S b)).
Example C65_sparse_errors_witness : exists tr, trellis_of no_garbage code75 false = Ok tr /\ decodable code75 8 (gs0 2 4) /\ usable code75 8 None /\ inputs 1 [1; 0; 1; 1; 0; 1; 0; 0] /\
  let rc := [0; 1; 0; 1; 0; 0; 1; 0; 1; 1; 0; 0; 0; 1; 1; 1] in mismatches rc (encoded tr [1; 0; 1; 1; 0; 1; 0; 0]) = 2 /\
  walk (entry (tr_next tr)) 0 [1; 0; 1; 1; 0; 1; 0; 0] = 0 /\
  (let tau := Nat.min (steps code75 8) (1 + depth code75 8 None - 1) in let next := entry (tr_next tr) in
   forall (a c : nat) e, (a <= 1 < c)%nat -> (c <= tau)%nat -> length e = (c - a)%nat -> inputs (kk code75) e -> nth (1 - a) e 0 <> 0 ->
       (forall i, (0 < i < c - a)%nat -> walk next 0 (firstn i e) <> 0) -> ((c < tau)%nat -> walk next 0 e = 0) ->
       2 * mismatches (slice rc (a * 2) (c * 2)) (slice (encoded tr [1; 0; 1; 1; 0; 1; 0; 0]) (a * 2) (c * 2)) < weight (encoded tr e)).
Proof.
  eexists. split; [vm_compute; reflexivity|]. split; [dec_tac|]. split; [vm_compute; lia|]. split; [unfold inputs; repeat constructor; cbn; lia|]. cbv zeta. split; [vm_compute; reflexivity|]. split; [vm_compute; reflexivity|].
  change (Nat.min (steps code75 8) (1 + depth code75 8 None - 1)) with 8%nat. intros a c e Ha Hc HL He Hnz Hin Hend. match type of Hin with context [entry (tr_next ?t)] => set (tr := t) in * end.
  assert (K : sparse_check code75 tr [1; 0; 1; 1; 0; 1; 0; 0] [0; 1; 0; 1; 0; 0; 1; 0; 1; 1; 0; 0; 0; 1; 1; 1] 8 1 = true) by (vm_compute; reflexivity).
  unfold sparse_check in K. rewrite forallb_forall in K. specialize (K a (proj2 (in_seq 2 0 a) ltac:(lia))). rewrite forallb_forall in K. specialize (K c (proj2 (in_seq (8 - 1) 2 c) ltac:(lia))).
  rewrite forallb_forall in K. specialize (K e (words_all _ _ e HL He)).
  apply orb_prop in K. destruct K as [K|K]; [|apply Z.ltb_lt; exact K]. exfalso. apply orb_prop in K. destruct K as [K|K].
  - apply orb_prop in K. destruct K as [K|K]; [apply Z.eqb_eq in K; contradiction|]. apply existsb_exists in K. destruct K as (i & Hi & Ei). apply in_seq in Hi. apply Z.eqb_eq in Ei. apply (Hin i); [lia|exact Ei].
  - apply andb_prop in K. destruct K as [K1 K2]. apply Nat.ltb_lt in K1. specialize (Hend K1). apply negb_true_iff, Z.eqb_neq in K2. contradiction.
Qed.

Theorem C65_code_5_7 :
forall (garbage : regs) (tr : Trellis) (msg coded received : list Z) gp (gs : nat -> scratch Z),
    trellis_of garbage code_5_7 false = Ok tr -> shaped code_5_7 gs -> bits msg -> (5 <= length msg)%nat -> Z.of_nat (length msg) < 2 ^ 47 ->
    conv_encode msg tr Term None = Ok coded -> bits received -> length received = length coded ->
    (forall i, mismatches (slice received (2 * i) (2 * i + 26)) (slice coded (2 * i) (2 * i + 26)) <= 2) ->
    exists out caller, viterbi_decode Z.add Z.leb 0 hard received tr None gp gs = Ok (map Some out, caller) /\ length out = (length msg + 2)%nat /\
      firstn (length msg) out = msg.
Proof. exact C65_code_5_7_proof. Qed.
Print Assumptions C65_code_5_7.
(* twenty message bits, four errors in the stream of 44, two in the first 26 bits and two in the last 18; the message comes back *)
Lemma windows_check x y : (forallb (fun i => mismatches (slice x (2 * i) (2 * i + 26)) (slice y (2 * i) (2 * i + 26)) <=? 2) (seq 0 (length x)) = true) ->
  forall i, mismatches (slice x (2 * i) (2 * i + 26)) (slice y (2 * i) (2 * i + 26)) <= 2.
Proof.
  intros H i. destruct (Nat.lt_ge_cases i (length x)) as [L|L]; [rewrite forallb_forall in H; apply Z.leb_le; apply H; apply in_seq; lia|].
  unfold slice at 1. rewrite skipn_all2 by lia. rewrite firstn_nil. unfold mismatches. cbn [combine filter length]. lia.
Qed.
Definition msg20 := [1; 0; 1; 1; 0; 1; 0; 0; 1; 1; 1; 0; 1; 0; 0; 0; 1; 1; 0; 1].
Definition flipped (is : list nat) (l : list Z) : list Z := map (fun p => if existsb (Nat.eqb (fst p)) is then 1 - snd p else snd p) (combine (seq 0 (length l)) l).
Example C65_code_5_7_witness : exists tr coded caller, trellis_of no_garbage code_5_7 false = Ok tr /\ shaped code_5_7 (gs0 2 4) /\ bits msg20 /\ conv_encode msg20 tr Term None = Ok coded /\
  bits (flipped [1; 8; 29; 40]%nat coded) /\ (forall i, mismatches (slice (flipped [1; 8; 29; 40]%nat coded) (2 * i) (2 * i + 26)) (slice coded (2 * i) (2 * i + 26)) <= 2) /\
  mismatches (flipped [1; 8; 29; 40]%nat coded) coded = 4 /\
  viterbi_decode Z.add Z.leb 0 hard (flipped [1; 8; 29; 40]%nat coded) tr None gp0 (gs0 2 4) = Ok (map Some (msg20 ++ [0; 0]), caller).
Proof.
  eexists. eexists. eexists. split; [vm_compute; reflexivity|]. split; [intros ?; split; reflexivity|]. split; [unfold msg20; bits_tac|]. split; [vm_compute; reflexivity|]. split; [vm_compute; bits_tac|].
  split; [apply windows_check; vm_compute; reflexivity|]. split; [vm_compute; reflexivity|]. vm_compute. reflexivity.
Qed.

Theorem C65_terminated_distance_refuted :
exists (tr : Trellis) (coded received out caller : list Z) (gs : nat -> scratch Z),
    trellis_of (fun _ _ => 0) code_5_7 false = Ok tr /\ decodable code_5_7 5 gs /\ usable code_5_7 5 None /\ conv_encode [0; 0; 1] tr Term None = Ok coded /\
    (forall msg' coded', bits msg' -> length msg' = 3%nat -> msg' <> [0; 0; 1] -> conv_encode msg' tr Term None = Ok coded' -> 5 <= mismatches coded coded') /\
    bits received /\ length received = length coded /\ mismatches received coded = 2 /\
    viterbi_decode Z.add Z.leb 0 hard received tr None (fun _ _ => 0) gs = Ok (map Some out, caller) /\ firstn 3 out <> [0; 0; 1].
Proof. exact C65_terminated_distance_refuted_proof. Qed.
Print Assumptions C65_terminated_distance_refuted.

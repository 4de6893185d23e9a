(* Properties C21 - C28: Trellis and conv_encode (convcode.py).  See TrellisSpec.v for code, well_formed,
   encoder_step, gcoef, fcoef, line_sum, entry.  conv_encode_st also returns the encoder's final state.
   rate_ok k n (FloatRate.v) says that the binary64 quotient k/n does not exceed k/n by more than a
   factor 1/(1 - 2^-54); it can be evaluated for every k, n. *)
From Verif Require Import Base UtilModel TrellisModel TrellisSpec FloatRate ConvProofs ConvMore LegacyModel ConvTop.

(* ---------------------------------------------------------------- C21 *)

Theorem C21_trellis_tables :
forall (garbage : regs) (C : code) (rsc : bool), well_formed C ->
    exists tr : Trellis, trellis_of garbage C rsc = Ok tr /\
      tr_k tr = kk C /\ tr_n tr = outs C /\ tr_M tr = MM C /\ tr_rsc tr = rsc /\
      length (tr_next tr) = (2 ^ MM C)%nat /\ length (tr_out tr) = (2 ^ MM C)%nat /\
      forall s u : Z, 0 <= s < 2 ^ Z.of_nat (MM C) -> 0 <= u < 2 ^ Z.of_nat (kk C) ->
        encoder_step C s u (entry (tr_out tr) s u) (entry (tr_next tr) s u).
Proof. exact C21_trellis_tables_proof. Qed.
Print Assumptions C21_trellis_tables.
(* G(D) = [1+D^2, 1+D+D^2]; two delay lines of different length; matrix feedback *)
Definition code75 := {| memory := [2%nat]; outs := 2; gens := [[5; 7]]; fback := None; fmt := MSB |}.
Definition code21 := {| memory := [2%nat; 1%nat]; outs := 3; gens := [[5; 7; 0]; [0; 2; 3]]; fback := None; fmt := MSB |}.
Definition code21L := {| memory := [2%nat; 1%nat]; outs := 3; gens := [[5; 7; 0]; [0; 2; 6]]; fback := None; fmt := LSB |}.
Definition codeFB := {| memory := [1%nat; 1%nat]; outs := 3; gens := [[1; 0; 0]; [0; 1; 3]]; fback := Some [[2; 2]; [3; 1]]; fmt := MSB |}.
Definition no_garbage : regs := fun _ _ => 0.
Example C21_witness : well_formed code75 /\ well_formed code21 /\ well_formed code21L /\ well_formed codeFB /\
  (exists tr, trellis_of no_garbage code75 false = Ok tr /\ tr_next tr = [[0; 2]; [0; 2]; [1; 3]; [1; 3]] /\ tr_out tr = [[0; 3]; [3; 0]; [1; 2]; [2; 1]]).
Proof. do 4 (split; [apply wf_check_ok; reflexivity|]). eexists. split; [vm_compute; reflexivity|]. split; vm_compute; reflexivity. Qed.

Theorem C21_step_unique :
forall (C : code) (s u o1 s1 o2 s2 : Z), well_formed C -> encoder_step C s u o1 s1 -> encoder_step C s u o2 s2 -> o1 = o2 /\ s1 = s2.
Proof. exact C21_step_unique_proof. Qed.
Print Assumptions C21_step_unique.
Example C21_unique_witness : exists o s', encoder_step code75 3 1 o s'.
Proof. destruct (C21_trellis_tables no_garbage code75 false ltac:(apply wf_check_ok; reflexivity)) as (tr & _ & _ & _ & _ & _ & _ & _ & H).
  eexists. eexists. apply (H 3 1); vm_compute; split; congruence. Qed.

Theorem C21_memory_independent :
forall (garbage garbage' : regs) (C : code) (rsc : bool), well_formed C -> trellis_of garbage C rsc = trellis_of garbage' C rsc.
Proof. exact C21_memory_independent_proof. Qed.
Print Assumptions C21_memory_independent.
Example C21_independent_witness : well_formed code21 /\ trellis_of (fun _ _ => 1) code21 false = trellis_of no_garbage code21 false.
Proof. split; [apply wf_check_ok; reflexivity|]. apply C21_memory_independent. apply wf_check_ok. reflexivity. Qed.

Theorem C21_memory_dependent_refuted :
exists (C : code) (garbage garbage' : regs), memory C <> [] /\ length (gens C) = kk C /\ fmt C = MSB /\ fback C = None /\
    (forall i j : nat, 0 <= mat_get (gens C) i j < 2 ^ Z.of_nat (WW C)) /\ trellis_of garbage C false <> trellis_of garbage' C false.
Proof. exact C21_memory_dependent_refuted_proof. Qed.
Print Assumptions C21_memory_dependent_refuted.

(* ---------------------------------------------------------------- C22 *)

Theorem C22_incoming :
forall (garbage : regs) (C : code) (rsc : bool) (tr : Trellis) (s' : Z), well_formed C -> trellis_of garbage C rsc = Ok tr ->
    fback C = None \/ input_injective C -> 0 <= s' < 2 ^ Z.of_nat (MM C) ->
    length (filter (fun p => entry (tr_next tr) (fst p) (snd p) =? s') (list_prod (zseq (MM C)) (zseq (kk C)))) = (2 ^ kk C)%nat.
Proof. exact C22_incoming_proof. Qed.
Print Assumptions C22_incoming.
(* two recursive lines whose D^0 matrix [[1 0][1 1]] is invertible *)
Definition codeFI := {| memory := [1%nat; 1%nat]; outs := 3; gens := [[1; 0; 0]; [0; 1; 3]]; fback := Some [[1; 2]; [3; 3]]; fmt := MSB |}.
Example C22_feedback_witness : well_formed codeFI /\ input_injective codeFI.
Proof.
  split; [apply wf_check_ok; reflexivity|]. intros u u' Hu Hu' H. change (2 ^ Z.of_nat (kk codeFI)) with 4 in *.
  pose proof (H 0%nat ltac:(cbn; lia)) as H0. pose proof (H 1%nat ltac:(cbn; lia)) as H1.
  assert (u = 0 \/ u = 1 \/ u = 2 \/ u = 3) as [-> | [-> | [-> | ->]]] by lia; assert (u' = 0 \/ u' = 1 \/ u' = 2 \/ u' = 3) as [-> | [-> | [-> | ->]]] by lia; reflexivity || discriminate H0 || discriminate H1.
Qed.
Example C22_witness : well_formed codeFB /\ well_formed code21 /\
  (exists tr, trellis_of no_garbage code21 false = Ok tr /\
     length (filter (fun p => entry (tr_next tr) (fst p) (snd p) =? 5) (list_prod (zseq 3) (zseq 2))) = 4%nat).
Proof. split; [apply wf_check_ok; reflexivity|]. split; [apply wf_check_ok; reflexivity|]. eexists. split; [vm_compute; reflexivity|vm_compute; reflexivity]. Qed.

Theorem C22_singular_feedback_refuted :
exists (C : code) (tr : Trellis) (s' : Z), well_formed C /\ trellis_of (fun _ _ => 0) C true = Ok tr /\ 0 <= s' < 2 ^ Z.of_nat (MM C) /\
    filter (fun p => entry (tr_next tr) (fst p) (snd p) =? s') (list_prod (zseq (MM C)) (zseq (kk C))) = [].
Proof. exact C22_singular_feedback_refuted_proof. Qed.
Print Assumptions C22_singular_feedback_refuted.

(* ---------------------------------------------------------------- C23 *)

Theorem C23_convolution :
forall (garbage : regs) (C : code) (rsc : bool) (tr : Trellis) (msg : list Z) (T : nat),
    well_formed C -> fback C = None -> trellis_of garbage C rsc = Ok tr -> (1 <= outs C)%nat -> rate_ok (kk C) (outs C) = true ->
    bits msg -> length msg = (T * kk C)%nat -> Z.of_nat (length msg) * Z.of_nat (outs C) < 2 ^ 49 ->
    exists out : list Z, conv_encode msg tr Cont None = Ok out /\ length out = (T * outs C)%nat /\
      forall t j : nat, (t < T)%nat -> (j < outs C)%nat ->
        nth (t * outs C + j) out 0 =
          Z.b2z (line_sum C (fun i d => gcoef C i j d && ((d <=? t)%nat && (nth ((t - d) * kk C + i) msg 0 =? 1)))).
Proof. exact C23_convolution_proof. Qed.
Print Assumptions C23_convolution.
Example C23_witness : rate_ok 2 3 = true /\ fback code21 = None /\
  (exists tr, trellis_of no_garbage code21 false = Ok tr /\ conv_encode [1; 0; 1; 1; 0; 1] tr Cont None = Ok [1; 1; 0; 1; 0; 1; 1; 1; 0]).
Proof. split; [reflexivity|]. split; [reflexivity|]. eexists. split; [vm_compute; reflexivity|vm_compute; reflexivity]. Qed.

(* ---------------------------------------------------------------- C24 *)

Theorem C24_linear :
forall (garbage : regs) (C : code) (rsc : bool) (tr : Trellis) (term : termination) (puncture : option (list Z)) (a b : list Z),
    well_formed C -> trellis_of garbage C rsc = Ok tr -> (1 <= outs C)%nat -> rate_ok (kk C) (outs C) = true ->
    term = Cont \/ rsc = false -> puncture <> Some [] -> bits a -> bits b -> length a = length b ->
    Z.of_nat (length a + 2 * MM C) * Z.of_nat (outs C) < 2 ^ 49 ->
    exists ea eb : list Z, conv_encode a tr term puncture = Ok ea /\ conv_encode b tr term puncture = Ok eb /\ length ea = length eb /\
      conv_encode (xorl a b) tr term puncture = Ok (xorl ea eb).
Proof. exact C24_linear_proof. Qed.
Print Assumptions C24_linear.
Example C24_witness : exists tr, trellis_of no_garbage codeFB true = Ok tr /\ rate_ok (kk codeFB) (outs codeFB) = true /\
  conv_encode [1; 0; 1; 1] tr Cont None = Ok [1; 0; 0; 1; 1; 0] /\ conv_encode [0; 1; 1; 1] tr Cont None = Ok [0; 1; 1; 1; 1; 0] /\
  conv_encode [1; 1; 0; 0] tr Cont None = Ok [1; 1; 1; 0; 0; 0].
Proof. eexists. split; [vm_compute; reflexivity|]. repeat split; vm_compute; reflexivity. Qed.

(* ---------------------------------------------------------------- C25 *)

Theorem C25_terminates :
forall (garbage : regs) (C : code) (tr : Trellis) (puncture : option (list Z)) (msg : list Z),
    well_formed C -> fback C = None -> trellis_of garbage C false = Ok tr -> (1 <= outs C)%nat -> rate_ok (kk C) (outs C) = true ->
    puncture <> Some [] -> bits msg -> Z.of_nat (length msg + 2 * MM C) * Z.of_nat (outs C) < 2 ^ 49 ->
    (max_mem (memory C) + (length msg + kk C - 1) / kk C <= (length msg + MM C + MM C mod kk C) / kk C)%nat ->
    exists out : list Z, conv_encode_st msg tr Term puncture = Ok (out, 0).
Proof. exact C25_terminates_proof. Qed.
Print Assumptions C25_terminates.
Example C25_witness : exists tr, trellis_of no_garbage code21 false = Ok tr /\ conv_encode_st [1; 1; 1; 1] tr Term None = Ok ([1; 1; 1; 1; 1; 0; 1; 1; 1; 1; 1; 0], 0) /\
  (max_mem (memory code21) + (4 + kk code21 - 1) / kk code21 <= (4 + MM code21 + MM code21 mod kk code21) / kk code21)%nat.
Proof. eexists. split; [vm_compute; reflexivity|]. split; [vm_compute; reflexivity|]. vm_compute. lia. Qed.

Theorem C25_condition :
forall (C : code) (L : nat), well_formed C ->
    kk C = 1%nat \/ (exists m q : nat, Forall (fun x => x = m) (memory C) /\ L = (q * kk C)%nat) ->
    (max_mem (memory C) + (L + kk C - 1) / kk C <= (L + MM C + MM C mod kk C) / kk C)%nat.
Proof. exact C25_condition_proof. Qed.
Print Assumptions C25_condition.
Example C25_condition_witness : kk code75 = 1%nat /\ Forall (fun x => x = 1%nat) (memory codeFB).
Proof. split; [reflexivity|repeat constructor]. Qed.

Theorem C25_restart :
forall (garbage : regs) (C : code) (tr : Trellis) (msg msg2 : list Z) (T T2 : nat),
    well_formed C -> fback C = None -> trellis_of garbage C false = Ok tr -> (1 <= outs C)%nat -> rate_ok (kk C) (outs C) = true ->
    bits msg -> bits msg2 -> length msg2 = (T2 * kk C)%nat ->
    (length msg + MM C + MM C mod kk C)%nat = (T * kk C)%nat ->
    (max_mem (memory C) + (length msg + kk C - 1) / kk C <= (length msg + MM C + MM C mod kk C) / kk C)%nat ->
    Z.of_nat (length msg + 2 * MM C + length msg2) * Z.of_nat (outs C) < 2 ^ 49 ->
    exists o1 o2 : list Z, conv_encode msg tr Term None = Ok o1 /\ conv_encode msg2 tr Cont None = Ok o2 /\
      conv_encode (msg ++ repeat 0 (MM C + MM C mod kk C) ++ msg2) tr Cont None = Ok (o1 ++ o2).
Proof. exact C25_restart_proof. Qed.
Print Assumptions C25_restart.
Example C25_restart_witness : exists tr, trellis_of no_garbage code75 false = Ok tr /\
  conv_encode [1; 0; 1] tr Term None = Ok [1; 1; 0; 1; 0; 0; 0; 1; 1; 1] /\ conv_encode [1; 1] tr Cont None = Ok [1; 1; 1; 0] /\
  conv_encode [1; 0; 1; 0; 0; 1; 1] tr Cont None = Ok [1; 1; 0; 1; 0; 0; 0; 1; 1; 1; 1; 1; 1; 0].
Proof. eexists. split; [vm_compute; reflexivity|]. repeat split; vm_compute; reflexivity. Qed.

Theorem C25_unequal_memories_refuted :
exists (C : code) (tr : Trellis) (msg out : list Z) (s : Z), well_formed C /\ fback C = None /\ memory C = [3%nat; 1%nat] /\
    trellis_of (fun _ _ => 0) C false = Ok tr /\ bits msg /\ conv_encode_st msg tr Term None = Ok (out, s) /\ s <> 0.
Proof. exact C25_unequal_memories_refuted_proof. Qed.
Print Assumptions C25_unequal_memories_refuted.

(* ---------------------------------------------------------------- C26 *)

Theorem C26_recursive_termination :
forall (garbage : regs) (C : code) (m : nat) (tr : Trellis),
    well_formed C -> memory C = [m] -> (1 <= m)%nat -> fcoef C 0 0 0 = true ->
    trellis_of garbage C true = Ok tr -> (1 <= outs C)%nat -> rate_ok 1 (outs C) = true -> Z.of_nat (2 * m) * Z.of_nat (outs C) < 2 ^ 49 ->
    ((forall msg : list Z, bits msg -> Z.of_nat (length msg + m) * Z.of_nat (outs C) < 2 ^ 49 ->
        exists out : list Z, conv_encode_st msg tr Term None = Ok (out, 0))
     <-> (fcoef C 0 0 m = true /\ forall d : nat, (1 <= d < m)%nat -> fcoef C 0 0 d = false)).
Proof. exact C26_recursive_termination_proof. Qed.
Print Assumptions C26_recursive_termination.
(* feedback 1 + D^2, generator (1+D+D^2)/(1+D^2); feedback 1 + D + D^2 *)
Definition codeR := {| memory := [2%nat]; outs := 2; gens := [[5; 7]]; fback := Some [[5]]; fmt := MSB |}.
Definition codeR7 := {| memory := [2%nat]; outs := 2; gens := [[7; 5]]; fback := Some [[7]]; fmt := MSB |}.
Example C26_witness : well_formed codeR /\ well_formed codeR7 /\ fcoef codeR 0 0 0 = true /\ rate_ok 1 2 = true /\
  (exists tr out, trellis_of no_garbage codeR true = Ok tr /\ conv_encode_st [1; 0; 1; 1] tr Term None = Ok (out, 0)) /\
  (exists tr out, trellis_of no_garbage codeR7 true = Ok tr /\ conv_encode_st [1; 0; 1; 1] tr Term None = Ok (out, 3)).
Proof. split; [apply wf_check_ok; reflexivity|]. split; [apply wf_check_ok; reflexivity|]. split; [reflexivity|]. split; [reflexivity|].
  split; eexists; eexists; (split; [vm_compute; reflexivity|vm_compute; reflexivity]). Qed.

Theorem C26_tail :
forall (garbage : regs) (C : code) (m : nat) (tr : Trellis) (msg : list Z),
    well_formed C -> memory C = [m] -> trellis_of garbage C true = Ok tr -> (1 <= outs C)%nat -> rate_ok 1 (outs C) = true ->
    bits msg -> Z.of_nat (length msg + m) * Z.of_nat (outs C) < 2 ^ 49 ->
    exists (out : list Z) (s : Z) (o : list Z), 
      conv_encode_st msg tr Cont None = Ok (o, s) /\ 0 <= s < 2 ^ Z.of_nat m /\
      conv_encode msg tr Term None = Ok out /\
      conv_encode (msg ++ map (fun i => Z.b2z (Z.testbit s (Z.of_nat i))) (seq 0 m)) tr Cont None = Ok out.
Proof. exact C26_tail_proof. Qed.
Print Assumptions C26_tail.
Example C26_tail_witness : exists tr, trellis_of no_garbage codeR7 true = Ok tr /\ conv_encode_st [1; 1; 0; 1] tr Cont None = Ok ([1; 1; 0; 1; 1; 1; 0; 1], 1) /\
   conv_encode [1; 1; 0; 1] tr Term None = conv_encode [1; 1; 0; 1; 1; 0] tr Cont None.
Proof. eexists. split; [vm_compute; reflexivity|]. split; vm_compute; reflexivity. Qed.

Theorem C26_tail_several_lines :
(* any number k of lines: the M tail symbols are the state bits, last cell first, k at a time (an incomplete group is
     padded with zeros on its left), then zeros *)
  forall (garbage : regs) (C : code) (tr : Trellis) (msg : list Z) (T : nat),
    well_formed C -> trellis_of garbage C true = Ok tr -> (1 <= outs C)%nat -> rate_ok (kk C) (outs C) = true ->
    bits msg -> length msg = (T * kk C)%nat -> Z.of_nat (length msg + kk C * MM C) * Z.of_nat (outs C) < 2 ^ 49 ->
    exists (o : list Z) (s : Z), conv_encode_st msg tr Cont None = Ok (o, s) /\ 0 <= s < 2 ^ Z.of_nat (MM C) /\
      (let group := fun i : nat => Nat.min (kk C) (MM C - i * kk C) in
      let tail := concat (map (fun i => repeat 0 (kk C - group i) ++ map (fun j => Z.b2z (Z.testbit s (Z.of_nat (i * kk C + j)))) (seq 0 (group i))) (seq 0 (MM C))) in
      exists r : list Z * Z, conv_encode_st msg tr Term None = Ok r /\ conv_encode_st (msg ++ tail) tr Cont None = Ok r).
Proof. exact C26_tail_several_lines_proof. Qed.
Print Assumptions C26_tail_several_lines.
Definition codeR2 := {| memory := [2%nat; 1%nat]; outs := 3; gens := [[1; 0; 7]; [0; 1; 3]]; fback := Some [[7; 0]; [0; 3]]; fmt := MSB |}.
Example C26_tail_several_witness : exists tr, trellis_of no_garbage codeR2 true = Ok tr /\ well_formed codeR2 /\ rate_ok 2 3 = true /\ (exists o, conv_encode_st [1; 1; 0; 1] tr Cont None = Ok (o, 6)) /\
   (* state 6 = 110, tail groups (0 1), (0 1), (0 0) *)
   conv_encode_st [1; 1; 0; 1] tr Term None = conv_encode_st [1; 1; 0; 1; 0; 1; 0; 1; 0; 0] tr Cont None.
Proof. eexists. split; [vm_compute; reflexivity|]. split; [apply wf_check_ok; reflexivity|]. split; [reflexivity|]. split; [eexists; vm_compute; reflexivity|vm_compute; reflexivity]. Qed.

Theorem C26_several_lines_refuted :
(* two lines, each with the feedback 1 + D: the tail does not return to state 0 *)
  exists (C : code) (tr : Trellis) (msg out : list Z) (s : Z), well_formed C /\ memory C = [1%nat; 1%nat] /\ fback C = Some [[3; 0]; [0; 3]] /\ fmt C = MSB /\
    trellis_of (fun _ _ => 0) C true = Ok tr /\ bits msg /\ conv_encode_st msg tr Term None = Ok (out, s) /\ s <> 0.
Proof. exact C26_several_lines_refuted_proof. Qed.
Print Assumptions C26_several_lines_refuted.


(* ---------------------------------------------------------------- C27 *)

Theorem C27_length :
forall (garbage : regs) (C : code) (rsc : bool) (tr : Trellis) (msg : list Z) (T : nat),
    well_formed C -> trellis_of garbage C rsc = Ok tr -> (1 <= outs C)%nat -> rate_ok (kk C) (outs C) = true ->
    bits msg -> length msg = (T * kk C)%nat -> Z.of_nat (length msg + 2 * MM C) * Z.of_nat (outs C) < 2 ^ 49 ->
    (exists out : list Z, conv_encode msg tr Cont None = Ok out /\ length out = (T * outs C)%nat) /\
    (rsc = false -> ((MM C + MM C mod kk C) mod kk C = 0)%nat ->
       exists out : list Z, conv_encode msg tr Term None = Ok out /\ length out = ((T + (MM C + MM C mod kk C) / kk C) * outs C)%nat).
Proof. exact C27_length_proof. Qed.
Print Assumptions C27_length.
(* the rates with denominator up to 10 are fine *)
Example C27_rates : forallb (fun n => forallb (fun k => rate_ok k n) (seq 1 n)) (seq 1 10) = true /\ rate_ok 7 12 = false /\ rate_ok 3 17 = false.
Proof. split; [|split]; vm_compute; reflexivity. Qed.
Example C27_length_witness : exists tr out, trellis_of no_garbage code21 false = Ok tr /\ conv_encode [1; 0; 1; 1] tr Term None = Ok out /\ length out = 12%nat.
Proof. eexists. eexists. split; [vm_compute; reflexivity|]. split; vm_compute; reflexivity. Qed.

Theorem C27_any_length :
(* messages of any length: what is left after the last whole group of k bits is not encoded - the output of the whole groups is
     padded with zeros to the integer part of length * n / k; termination appends the zeros to the message first *)
  forall (garbage : regs) (C : code) (rsc : bool) (tr : Trellis) (msg : list Z),
    well_formed C -> trellis_of garbage C rsc = Ok tr -> (1 <= outs C)%nat -> rate_ok (kk C) (outs C) = true ->
    bits msg -> Z.of_nat (length msg + 4 * MM C + kk C) * Z.of_nat (outs C) + Z.of_nat (kk C) < 2 ^ 49 ->
    let T := (length msg / kk C)%nat in
    (exists out : list Z, conv_encode (firstn (T * kk C) msg) tr Cont None = Ok out /\ length out = (T * outs C)%nat /\
       conv_encode msg tr Cont None = Ok (out ++ repeat 0 (length msg * outs C / kk C - T * outs C))) /\
    (rsc = false -> conv_encode msg tr Term None = conv_encode (msg ++ repeat 0 (MM C + MM C mod kk C)) tr Cont None).
Proof. exact C27_any_length_proof. Qed.
Print Assumptions C27_any_length.
(* seven bits, two at a time: three steps and one zero *)
Example C27_any_length_witness : exists tr, trellis_of no_garbage code21 false = Ok tr /\ conv_encode [1; 0; 1; 1; 0; 1] tr Cont None = Ok [1; 1; 0; 1; 0; 1; 1; 1; 0] /\
  conv_encode [1; 0; 1; 1; 0; 1; 1] tr Cont None = Ok [1; 1; 0; 1; 0; 1; 1; 1; 0; 0] /\ (7 * 3 / 2 - 7 / 2 * 3 = 1)%nat.
Proof. eexists. split; [vm_compute; reflexivity|]. split; [vm_compute; reflexivity|]. split; vm_compute; reflexivity. Qed.

Theorem C27_puncturing :
forall (garbage : regs) (C : code) (rsc : bool) (tr : Trellis) (msg : list Z) (term : termination) (row out : list Z),
    well_formed C -> trellis_of garbage C rsc = Ok tr -> (1 <= outs C)%nat -> conv_encode msg tr term None = Ok out ->
    (row <> [] -> conv_encode msg tr term (Some row) = Ok (punctured row out) /\ length (punctured row out) = length out) /\
    (* a puncture matrix without columns *)
    (out <> [] -> conv_encode msg tr term (Some []) = Err ZeroDivisionError).
Proof. exact C27_puncturing_proof. Qed.
Print Assumptions C27_puncturing.
Example C27_puncturing_witness : exists tr, trellis_of no_garbage code75 false = Ok tr /\
  conv_encode [1; 0; 1; 1] tr Cont None = Ok [1; 1; 0; 1; 0; 0; 1; 0] /\
  conv_encode [1; 0; 1; 1] tr Cont (Some [1; 1; 1; 0]) = Ok [1; 1; 0; 0; 0; 1; 0; 0] /\ punctured [1; 1; 1; 0] [1; 1; 0; 1; 0; 0; 1; 0] = [1; 1; 0; 0; 0; 1; 0; 0].
Proof. eexists. split; [vm_compute; reflexivity|]. split; [vm_compute; reflexivity|]. split; vm_compute; reflexivity. Qed.

Theorem C27_rounding_refuted :
exists (C : code) (tr : Trellis) (msg : list Z), well_formed C /\ trellis_of (fun _ _ => 0) C false = Ok tr /\ bits msg /\
    kk C = 3%nat /\ outs C = 17%nat /\ length msg = 21%nat /\ conv_encode msg tr Cont None = Err ValueError.
Proof. exact C27_rounding_refuted_proof. Qed.
Print Assumptions C27_rounding_refuted.

(* ---------------------------------------------------------------- C28 *)

Theorem C28_legacy_tables :
forall (mem n : nat) (g_row : list Z) (feedback : Z) (rsc : bool), (1 <= mem)%nat -> (1 <= n <= length g_row)%nat ->
    (forall r : nat, (r < n)%nat -> 0 <= nth r g_row 0 < 2 ^ Z.of_nat (mem + 1)) -> 0 <= feedback < 2 ^ Z.of_nat (mem + 1) ->
    let row := if rsc then upd g_row 0 feedback else g_row in
    exists tr : Trellis, make_trellis_int [mem] n [g_row] feedback rsc = Ok (tr, [row]) /\ tr_k tr = 1%nat /\ tr_n tr = n /\ tr_M tr = mem /\
      forall s u : Z, 0 <= s < 2 ^ Z.of_nat mem -> 0 <= u < 2 ->
        (forall r : nat, (r < n)%nat ->
           Z.testbit (entry (tr_out tr) s u) (Z.of_nat n - 1 - Z.of_nat r) =
             xorb (xorb (Z.testbit u 0 && lcoef mem (nth r row 0) 0) (lsum mem feedback s)) (lsum mem (nth r row 0) s)) /\
        (0 <= entry (tr_next tr) s u < 2 ^ Z.of_nat mem) /\
        (forall d : nat, (1 <= d <= mem)%nat -> lcoef mem (entry (tr_next tr) s u) d =
           if (d =? 1)%nat then xorb (Z.testbit u 0) (lsum mem feedback s) else lcoef mem s (d - 1)).
Proof. exact C28_legacy_tables_proof. Qed.
Print Assumptions C28_legacy_tables.
Example C28_legacy_witness : exists tr, make_trellis_int [2%nat] 2 [[1; 7]] 5 true = Ok (tr, [[5; 7]]) /\
  tr_next tr = [[0; 2]; [2; 0]; [1; 3]; [3; 1]] /\ tr_out tr = [[0; 3]; [0; 3]; [1; 2]; [1; 2]].
Proof. eexists. split; [vm_compute; reflexivity|]. split; vm_compute; reflexivity. Qed.

Theorem C28_systematic :
forall (mem n : nat) (g_row : list Z) (feedback : Z) (msg : list Z), (1 <= mem)%nat -> (1 <= n <= length g_row)%nat ->
    (forall r : nat, (r < n)%nat -> 0 <= nth r g_row 0 < 2 ^ Z.of_nat (mem + 1)) -> 2 ^ Z.of_nat mem <= feedback < 2 ^ Z.of_nat (mem + 1) ->
    rate_ok 1 n = true -> bits msg -> Z.of_nat (length msg) * Z.of_nat n < 2 ^ 49 ->
    exists (tr : Trellis) (out : list Z), make_trellis_int [mem] n [g_row] feedback true = Ok (tr, [upd g_row 0 feedback]) /\
      conv_encode msg tr Cont None = Ok out /\ length out = (length msg * n)%nat /\
      forall t : nat, (t < length msg)%nat -> nth (t * n) out 0 = nth t msg 0.
Proof. exact C28_systematic_proof. Qed.
Print Assumptions C28_systematic.
Example C28_systematic_witness : exists tr out, make_trellis_int [2%nat] 2 [[1; 7]] 5 true = Ok (tr, [[5; 7]]) /\ conv_encode [1; 1; 0; 1] tr Cont None = Ok out /\ out = [1; 1; 1; 0; 0; 1; 1; 0].
Proof. eexists. eexists. split; [vm_compute; reflexivity|]. split; vm_compute; reflexivity. Qed.

Theorem C28_parity :
forall (mem n : nat) (g_row : list Z) (feedback : Z), (1 <= mem)%nat -> (1 <= n <= length g_row)%nat ->
    (forall r : nat, (r < n)%nat -> 2 ^ Z.of_nat mem <= nth r g_row 0 < 2 ^ Z.of_nat (mem + 1)) -> 2 ^ Z.of_nat mem <= feedback < 2 ^ Z.of_nat (mem + 1) ->
    exists tr : Trellis, make_trellis_int [mem] n [g_row] feedback true = Ok (tr, [upd g_row 0 feedback]) /\
      forall (s u : Z) (r : nat), 0 <= s < 2 ^ Z.of_nat mem -> 0 <= u < 2 -> (1 <= r < n)%nat ->
        (* the new cell of the register is the input plus the feedback sum; the output uses it *)
        let w := lcoef mem (entry (tr_next tr) s u) 1 in
        w = xorb (Z.testbit u 0) (lsum mem feedback s) /\
        Z.testbit (entry (tr_out tr) s u) (Z.of_nat n - 1 - Z.of_nat r) =
          xorb (w && lcoef mem (nth r g_row 0) 0) (lsum mem (nth r g_row 0) s).
Proof. exact C28_parity_proof. Qed.
Print Assumptions C28_parity.
Example C28_parity_witness : exists tr, make_trellis_int [3%nat] 2 [[8; 13]] 11 true = Ok (tr, [[11; 13]]) /\ entry (tr_next tr) 5 1 = 2 /\ entry (tr_out tr) 5 1 = 2.
Proof. eexists. split; [vm_compute; reflexivity|]. split; vm_compute; reflexivity. Qed.

Theorem C28_parity_refuted :
exists (mem n : nat) (g_row : list Z) (feedback : Z) (tr : Trellis) (s u : Z), make_trellis_int [mem] n [g_row] feedback true = Ok (tr, [upd g_row 0 feedback]) /\
    (forall r : nat, (r < n)%nat -> 0 <= nth r g_row 0 < 2 ^ Z.of_nat (mem + 1)) /\
    0 <= s < 2 ^ Z.of_nat mem /\ 0 <= u < 2 /\
    Z.testbit (entry (tr_out tr) s u) (Z.of_nat n - 1 - 1) <>
      xorb (lcoef mem (entry (tr_next tr) s u) 1 && lcoef mem (nth 1 g_row 0) 0) (lsum mem (nth 1 g_row 0) s).
Proof. exact C28_parity_refuted_proof. Qed.
Print Assumptions C28_parity_refuted.

(* ---------------------------------------------------------------- C75 *)

Theorem C75_long_register_rejected :
forall (memory : list nat) (n : nat) (g : list (list Z)) (feedback : Z) (rsc : bool) (l : nat),
    length memory = length g -> Forall (fun row => length row = n) g -> (1 <= n)%nat -> (rsc = true -> (length g <= n)%nat) ->
    (* register l is the first one, after register 0, with more than one cell *)
    (1 <= l < length g)%nat -> (1 <= nth 0 memory 0)%nat -> (forall i : nat, (1 <= i < l)%nat -> nth i memory 0%nat = 1%nat) -> (2 <= nth l memory 0)%nat ->
    (forall i : nat, (i <= l)%nat -> 0 <= nth 0 (nth i g []) 0 < 4 ^ Z.of_nat (nth i memory 0%nat + 1) /\ 0 <= feedback < 4 ^ Z.of_nat (nth i memory 0%nat + 1)) ->
    make_trellis_int memory n g feedback rsc = Err ValueError.
Proof. exact C75_long_register_rejected_proof. Qed.
Print Assumptions C75_long_register_rejected.
Example C75_long_register_witness : make_trellis_int [2; 1; 2]%nat 3 [[5; 7; 0]; [0; 2; 3]; [1; 1; 1]] 5 true = Err ValueError /\ make_trellis_int [1; 2]%nat 2 [[1; 3]; [1; 3]] 0 false = Err ValueError.
Proof. split; vm_compute; reflexivity. Qed.

Theorem C75_empty_first_register :
(* a first register without cells: the constructor raises *)
  forall (memory : list nat) (n : nat) (g : list (list Z)) (feedback : Z) (rsc : bool), length memory = length g -> Forall (fun row => length row = n) g -> (1 <= n)%nat -> (1 <= length g)%nat -> (rsc = true -> (length g <= n)%nat) ->
    nth 0 memory 0%nat = 0%nat -> 0 <= nth 0 (nth 0 g []) 0 < 4 -> 0 <= feedback < 4 ->
    ((3 <= list_sum memory)%nat -> make_trellis_int memory n g feedback rsc = Err ValueError) /\ (list_sum memory = 0%nat -> make_trellis_int memory n g feedback rsc = Err IndexError).
Proof. exact C75_empty_first_register_proof. Qed.
Print Assumptions C75_empty_first_register.
Example C75_empty_first_register_witness : make_trellis_int [0; 3]%nat 2 [[1; 1]; [5; 7]] 1 false = Err ValueError /\ make_trellis_int [0]%nat 2 [[1; 1]] 1 true = Err IndexError /\ make_trellis_int [0; 1; 1]%nat 2 [[1; 1]; [1; 3]; [2; 3]] 1 false = Err IndexError.
Proof. repeat split; vm_compute; reflexivity. Qed.

Theorem C75_one_cell_no_feedback :
forall (garbage : regs) (n : nat) (g : list (list Z)), (1 <= length g)%nat -> (1 <= n)%nat ->
    (forall i : nat, (i < length g)%nat -> length (nth i g []) = n) -> (forall i j : nat, (i < length g)%nat -> (j < n)%nat -> 0 <= nth j (nth i g []) 0 < 4) ->
    let ones := repeat 1%nat (length g) in
    exists tr : Trellis, make_trellis_int ones n g 0 false = Ok (tr, g) /\
      (* the trellis of the feed-forward encoder, by the constructor of C21 *)
      trellis_of garbage {| memory := ones; outs := n; gens := g; fback := None; fmt := LSB |} false = Ok tr.
Proof. exact C75_one_cell_no_feedback_proof. Qed.
Print Assumptions C75_one_cell_no_feedback.
Example C75_one_cell_witness : exists tr, make_trellis_int [1; 1]%nat 3 [[2; 3; 1]; [0; 1; 3]] 0 false = Ok (tr, [[2; 3; 1]; [0; 1; 3]]) /\ tr_out tr = [[0; 1; 6; 7]; [3; 2; 5; 4]; [3; 2; 5; 4]; [0; 1; 6; 7]].
Proof. eexists. split; vm_compute; reflexivity. Qed.

Theorem C75_first_register_refuted :
exists (memory : list nat) (g g' : list (list Z)) (tr tr' : Trellis), make_trellis_int memory 2 g 0 false = Ok (tr, g) /\
    (* g' writes the same polynomials as g for the constructor without the integer feedback *)
    (let C := {| memory := memory; outs := 2; gens := g'; fback := None; fmt := LSB |} in
     well_formed C /\ (forall i j d : nat, (i < 2)%nat -> (j < 2)%nat -> (d <= nth i memory 0)%nat -> gcoef C i j d = lcoef (nth i memory 0%nat) (mat_get g i j) d) /\
     forall garbage : regs, trellis_of garbage C false = Ok tr') /\
    tr_next tr = tr_next tr' /\ tr_out tr <> tr_out tr'.
Proof. exact C75_first_register_refuted_proof. Qed.
Print Assumptions C75_first_register_refuted.


Theorem C75_feedback_refuted :
forall feedback : Z, feedback = 2 \/ feedback = 3 ->
  exists (g : list (list Z)) (tr : Trellis) (s u : Z), make_trellis_int [1; 1]%nat 2 g feedback false = Ok (tr, g) /\ 0 <= s < 4 /\ 0 <= u < 4 /\
    (* line 0 is the recursive register with feedback polynomial 1 + f1 D; line 1 is not *)
    (forall s u : Z, 0 <= s < 4 -> 0 <= u < 4 -> cell [1; 1]%nat (entry (tr_next tr) s u) 0 0 1 = xorb (cell [1; 1]%nat s u 0 0) (lcoef 1 feedback 1 && cell [1; 1]%nat s u 0 1)) /\
    cell [1; 1]%nat (entry (tr_next tr) s u) 0 1 1 <> xorb (cell [1; 1]%nat s u 1 0) (lcoef 1 feedback 1 && cell [1; 1]%nat s u 1 1).
Proof. exact C75_feedback_refuted_proof. Qed.
Print Assumptions C75_feedback_refuted.


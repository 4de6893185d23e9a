(* Properties C59, C60: wifi80211.py, and soft decoding with erasures (part of C30 / C34).  See WifiSpec.v, ViterbiSpec.v, TrellisSpec.v. *)
From Coq Require Import Reals Lra.
From Verif Require Import Base UtilModel TrellisModel TrellisSpec FloatRate ConvProofs ViterbiModel ViterbiReal ViterbiSpec
  LinksModel LinksSpec PunctModel WifiModel WifiSpec WifiTop.
Local Open Scope Z_scope.

(* ---------------------------------------------------------------- C30, erasures *)

Theorem C30_soft_erasures :
forall (garbage : regs) (C : code) (rsc : bool) (tr : Trellis) (us : list Z) (received : list R) (known : nat -> bool) (tb_depth : option nat) gp (gs : nat -> scratch R),
    trellis_of garbage C rsc = Ok tr -> decodable C (length us) gs -> usable C (length us) tb_depth -> inputs (kk C) us ->
    length received = (length us * outs C)%nat ->
    (forall i, (i < length received)%nat -> if known i then carries (nth i received 0%R) (nth i (encoded tr us) 0) else nth i received 0%R = 0%R) ->
    (forall t, (t < length us)%nat -> determines C (fun j => known (t * outs C + j)%nat)) ->
    exists caller, viterbi_decode Rplus Rleb 0%R soft received tr tb_depth gp gs = Ok (map Some (bitstream (kk C) us), caller).
Proof. exact C30_soft_erasures_proof. Qed.
Print Assumptions C30_soft_erasures.
(* every output of the (5, 43) code determines the input *)
Example C30_erasures_witness : determines (rate_half 5 43 MSB) (fun j => (j =? 1)%nat) /\ determines (rate_half 5 43 MSB) (fun j => (j =? 0)%nat).
Proof.
  split; intros u u' Hu Hu' H; change (2 ^ Z.of_nat (kk (rate_half 5 43 MSB))) with 2 in *;
    (specialize (H 1%nat ltac:(cbn; lia) eq_refl) || specialize (H 0%nat ltac:(cbn; lia) eq_refl));
    assert (u = 0 \/ u = 1) as [-> | ->] by lia; assert (u' = 0 \/ u' = 1) as [-> | ->] by lia; try reflexivity; vm_compute in H; discriminate.
Qed.

(* ---------------------------------------------------------------- C59 *)

Theorem C59_generators :
forall garbage garbage' : regs, exists tr, wifi_trellis garbage = Ok tr /\ trellis_of garbage' (rate_half 5 43 MSB) false = Ok tr.
Proof. exact C59_generators_proof. Qed.
Print Assumptions C59_generators.

Theorem C59_encoding :
(* the two output streams are m(D) (1 + D^2) and m(D) (1 + D + D^3 + D^5) *)
  forall (garbage : regs) (tr : Trellis) (msg : list Z), wifi_trellis garbage = Ok tr -> bits msg -> Z.of_nat (length msg) * 2 < 2 ^ 49 ->
    let m := fun (t d : nat) => if (d <=? t)%nat then nth (t - d) msg 0 else 0 in
    exists out, conv_encode msg tr Cont None = Ok out /\ length out = (2 * length msg)%nat /\
      forall t, (t < length msg)%nat ->
        nth (2 * t) out 0 = (m t 0%nat + m t 2%nat) mod 2 /\
        nth (2 * t + 1) out 0 = (m t 0%nat + m t 1%nat + m t 3%nat + m t 5%nat) mod 2.
Proof. exact C59_encoding_proof. Qed.
Print Assumptions C59_encoding.
Example C59_witness : exists tr, wifi_trellis (fun _ _ => 0) = Ok tr /\ conv_encode [1; 0; 0; 0; 0; 0; 0] tr Cont None = Ok [1; 1; 0; 1; 1; 0; 0; 1; 0; 0; 0; 1; 0; 0].
Proof. eexists. split; [vm_compute; reflexivity|vm_compute; reflexivity]. Qed.

Theorem C59_standard_refuted :
(* the standard's generators are octal 133 and 171: g0 = 1 + D^2 + D^3 + D^5 + D^6, g1 = 1 + D + D^2 + D^3 + D^6 *)
  forall (garbage garbage' : regs) (f : poly_format) (tr std : Trellis),
    wifi_trellis garbage = Ok tr -> trellis_of garbage' (rate_half 91 121 f) false = Ok std ->
    conv_encode [1; 0; 0; 0; 0; 0; 0] tr Cont None <> conv_encode [1; 0; 0; 0; 0; 0; 0] std Cont None.
Proof. exact C59_standard_refuted_proof. Qed.
Print Assumptions C59_standard_refuted.
(* the encoder with octal 133, 171 whose leading bit is D^0 gives the impulse response of the standard *)
Example C59_standard_witness : exists std, trellis_of (fun _ _ => 0) (rate_half 91 121 LSB) false = Ok std /\
  conv_encode [1; 0; 0; 0; 0; 0; 0] std Cont None = Ok [1; 1; 0; 1; 1; 1; 1; 1; 0; 0; 1; 0; 1; 1].
Proof. eexists. split; [vm_compute; reflexivity|vm_compute; reflexivity]. Qed.

Theorem C59_catastrophic :
(* N ones give only 5 ones at the start: the code is catastrophic, a fixed number of channel errors can cause any number of decoding errors *)
  forall (garbage : regs) (tr : Trellis) (N : nat), wifi_trellis garbage = Ok tr -> Z.of_nat N * 2 + 10 < 2 ^ 49 ->
    conv_encode (repeat 1 (5 + N)) tr Cont None = Ok ([1; 1; 1; 0; 0; 0; 0; 1; 0; 1] ++ repeat 0 (2 * N)) /\
    conv_encode (repeat 0 (5 + N)) tr Cont None = Ok (repeat 0 (10 + 2 * N)).
Proof. exact C59_catastrophic_proof. Qed.
Print Assumptions C59_catastrophic.

(* ---------------------------------------------------------------- C60 *)

Theorem C60_float_rate :
(* a float rate p / q with q <= 100 is turned back into the fraction p / q *)
  forall p q n d : Z, 0 < p <= q -> q <= 100 -> link_rate p q = (n, d) -> n * q = p * d /\ Z.gcd n d = 1 /\ 0 < d.
Proof. exact C60_float_rate_proof. Qed.
Print Assumptions C60_float_rate.
Example C60_float_rate_witness : link_rate 2 3 = (2, 3) /\ link_rate 5 6 = (5, 6) /\ rnd64 2 3 = (6004799503160661, -53).
Proof. split; [vm_compute; reflexivity|]. split; vm_compute; reflexivity. Qed.

Theorem C60_lengths :
(* every scheme, number of antennas, chunk size and number of aggregated frames *)
  forall (garbage : regs) (tr : Trellis) (mcs p q m nb_tx send_chunk : Z) (psk : bool) (frames : nat) (msg : list Z),
    wifi_trellis garbage = Ok tr -> wifi_coding mcs = Ok (p, q) -> wifi_modem mcs = Ok (psk, m) -> 1 <= nb_tx -> (1 <= frames)%nat ->
    let b := wifi_bits_per_symbol m * nb_tx in
    Z.of_nat (length msg) = round_chunk b p q send_chunk * Z.of_nat frames ->
    bits msg -> Z.of_nat (length msg) < 2 ^ 48 ->
    exists coded out, conv_encode msg tr Cont None = Ok coded /\ length coded = (2 * length msg)%nat /\
      wifi_code_bits tr (p, q) msg = Ok out /\
      Z.of_nat (length out) * p = Z.of_nat (length msg) * q /\             (* chunk / rate coded bits *)
      (b | Z.of_nat (length out)) /\                                      (* whole symbol vectors *)
      received_len p q (Z.of_nat (length msg)) = Z.of_nat (length out) /\   (* the array of received values has this size *)
      wifi_coded_len (Z.of_nat (length out)) p q = Z.of_nat (length coded).
Proof. exact C60_lengths_proof. Qed.
Print Assumptions C60_lengths.
(* 64-QAM, rate 5/6, two antennas, chunk of 100 bits: 100 bits -> 120 coded bits = 10 vectors of 12 *)
Example C60_witness : wifi_coding 7 = Ok (5, 6) /\ wifi_modem 7 = Ok (false, 64) /\ round_chunk (wifi_bits_per_symbol 64 * 2) 5 6 109 = 100 /\
    received_len 5 6 100 = 120 /\ wifi_coded_len 120 5 6 = 200.
Proof. repeat split; vm_compute; reflexivity. Qed.

Theorem C60_depuncturing :
forall (garbage : regs) (tr : Trellis) (mcs p q : Z) (msg : list Z),
    wifi_trellis garbage = Ok tr -> wifi_coding mcs = Ok (p, q) -> bits msg -> Z.of_nat (length msg) < 2 ^ 48 -> (0 < length msg)%nat -> (p | Z.of_nat (length msg)) ->
    let pv := wifi_puncture_matrix p q in
    exists coded out, conv_encode msg tr Cont None = Ok coded /\ length coded = (2 * length msg)%nat /\ wifi_code_bits tr (p, q) msg = Ok out /\
      (forall i, (i < length coded)%nat -> sent pv i = true -> nth (before pv i) out 0 = nth i coded 0) /\
      forall r : list R, length r = length out ->
        match pv with Some v => depuncturing 0%R r v (Z.to_nat (wifi_coded_len (Z.of_nat (length r)) p q)) | None => Ok r end =
        Ok (map (fun i => if sent pv i then nth (before pv i) r 0%R else 0%R) (seq 0 (length coded))).
Proof. exact C60_depuncturing_proof. Qed.
Print Assumptions C60_depuncturing.

Theorem C60_noiseless :
(* whatever the magnitudes, values with the right signs are decoded to the message, for every scheme *)
  forall (garbage : regs) (tr : Trellis) (mcs p q : Z) (msg out : list Z) (llrs : list R) gp (gs : nat -> scratch R),
    wifi_trellis garbage = Ok tr -> wifi_coding mcs = Ok (p, q) -> bits msg -> Z.of_nat (length msg) < 2 ^ 48 -> (5 <= length msg)%nat -> (p | Z.of_nat (length msg)) ->
    shaped (rate_half 5 43 MSB) gs ->
    wifi_code_bits tr (p, q) msg = Ok out -> Forall2 carries llrs out ->
    exists caller, wifi_decode tr (p, q) llrs gp gs = Ok (map Some msg, caller).
Proof. exact C60_noiseless_proof. Qed.
Print Assumptions C60_noiseless.
Example C60_noiseless_witness : exists tr, wifi_trellis (fun _ _ => 0) = Ok tr /\ wifi_code_bits tr (3, 4) [1; 0; 1; 1; 0; 0] = Ok [1; 1; 0; 1; 1; 1; 1; 0] /\
    Forall2 carries [3; 2; -1; 0.1; 9; 9; 1; -1]%R [1; 1; 0; 1; 1; 1; 1; 0] /\ shaped (rate_half 5 43 MSB) (fun _ => {| pmetrics := repeat (Some 0%R) 2; index_array := repeat (0, 0) 64 |}).
Proof.
  eexists. split; [vm_compute; reflexivity|]. split; [vm_compute; reflexivity|]. split.
  - repeat (apply Forall2_cons; [|]); try apply Forall2_nil; unfold carries; first [left; split; [reflexivity|lra]|right; split; [reflexivity|lra]].
  - intros t. split; reflexivity.
Qed.

Theorem C60_unknown_mcs :
forall mcs : Z, 10 <= mcs -> wifi_coding mcs = Err IndexError /\ wifi_modem mcs = Err IndexError.
Proof. exact C60_unknown_mcs_proof. Qed.
Print Assumptions C60_unknown_mcs.
(* negative indices are accepted: -1 is a 256-PSK with rate 5/6 *)
Example C60_negative_mcs : wifi_coding (-1) = Ok (5, 6) /\ wifi_modem (-1) = Ok (true, 256) /\ wifi_coding (-11) = Err IndexError.
Proof. repeat split. Qed.

Theorem C60_schemes :
(* the schemes are those of the documentation: modulation, order and rate, and the puncturing vector keeps q bits out of 2 p *)
  forall (mcs : nat) (b p q : Z), nth_error vht_schemes mcs = Some (b, (p, q)) ->
    wifi_coding (Z.of_nat mcs) = Ok (p, q) /\ wifi_modem (Z.of_nat mcs) = Ok (b <=? 2, 2 ^ b) /\ wifi_bits_per_symbol (2 ^ b) = b /\
    (* the puncturing vector keeps the coded bits of the standard: bit A_i is position 2 (i - 1), bit B_i position 2 (i - 1) + 1 *)
    match wifi_puncture_matrix p q with
    | Some v => bits v /\ Z.of_nat (length v) = 2 * p /\ filter (fun i => nth i v 0 =? 1) (seq 0 (length v)) = kept_bits p
    | None => 2 * p = q
    end /\ Z.of_nat (length (kept_bits p)) = q.
Proof. exact C60_schemes_proof. Qed.
Print Assumptions C60_schemes.
Example C60_schemes_witness : nth_error vht_schemes 7 = Some (6, (5, 6)) /\ length vht_schemes = 10%nat.
Proof. split; reflexivity. Qed.

Theorem C60_short_input :
(* Decoding any array of values, whatever its length: zeros are inserted at the punctured positions of the expected
     number n of coded bits; when the array holds fewer values than n positions need, it is decoded as it is. *)
  forall (tr : Trellis) (mcs p q : Z) (r : list R) (v : list Z) gp (gs : nat -> scratch R),
    wifi_coding mcs = Ok (p, q) -> wifi_puncture_matrix p q = Some v ->
    let n := Z.to_nat (wifi_coded_len (Z.of_nat (length r)) p q) in
    wifi_decode tr (p, q) r gp gs =
    viterbi_decode Rplus Rleb 0%R soft
      (if (before (Some v) n <=? length r)%nat then map (fun i => if sent (Some v) i then nth (before (Some v) i) r 0%R else 0%R) (seq 0 n) else r)
      tr None gp gs.
Proof. exact C60_short_input_proof. Qed.
Print Assumptions C60_short_input.
(* rate 3/4: six values are nine coded bits, of which the vector keeps seven: decoded without depuncturing *)
Example C60_short_input_witness : wifi_puncture_matrix 3 4 = Some [1; 1; 1; 0; 0; 1] /\
    Z.to_nat (wifi_coded_len 6 3 4) = 9%nat /\ before (Some [1; 1; 1; 0; 0; 1]) 9 = 7%nat /\
    Z.to_nat (wifi_coded_len 8 3 4) = 12%nat /\ before (Some [1; 1; 1; 0; 0; 1]) 12 = 8%nat.
Proof. repeat split; vm_compute; reflexivity. Qed.

(* End-to-end properties C69, C70: coded transmissions over noisy channels. *)
From Coq Require Import Reals Lra.
From Verif Require Import Base UtilModel TrellisModel TrellisSpec FloatRate ConvProofs ViterbiModel ViterbiReal ViterbiSpec
  LinksModel LinksSpec PunctModel WifiModel WifiSpec Cplx MimoModel ChannelModel ChannelSpec ModemModel ModemSpec ModemTop WifiLinkModel ChainTop.
From Verif Require LdpcModel LdpcCheck LdpcSpec LdpcDecModel LdpcBPSpec.
Local Open Scope Z_scope.

(* ---------------------------------------------------------------- C69 *)

Theorem C69_wifi_chain :
(* every scheme: encode, puncture, modulate; noise of magnitude at most r on every symbol; soft demodulation, depuncturing, soft
     decoding: the message comes back *)
  forall (garbage : regs) (tr : Trellis) (mcs p q m send_chunk : Z) (psk : bool) (md : modem) (frames : nat) (msg : list Z) (r v : R),
    wifi_trellis garbage = Ok tr -> wifi_coding mcs = Ok (p, q) -> wifi_modem mcs = Ok (psk, m) -> wifi_get_modem mcs = Ok md ->
    bits msg -> (5 <= length msg)%nat -> Z.of_nat (length msg) < 2 ^ 48 ->
    Z.of_nat (length msg) = round_chunk (wifi_bits_per_symbol m) p q send_chunk * Z.of_nat frames ->
    let d := if psk then (2 * sin (PI / IZR m))%R else 2%R in            (* the distance of the constellation *)
    (0 < v)%R -> (v * ln (IZR m / 2) < d * (d - 2 * r))%R ->
    exists out s, wifi_code_bits tr (p, q) msg = Ok out /\ modulate md out = Ok s /\
      forall ys, Forall2 (fun x y => (Cabs (y - x)%C <= r)%R) s ys ->
        exists llrs, demodulate md ys Soft v = Ok (inr llrs) /\
          forall gp gs, shaped (rate_half 5 43 MSB) gs -> exists caller, wifi_decode tr (p, q) llrs gp gs = Ok (map Some msg, caller).
Proof. exact C69_wifi_chain_proof. Qed.
Print Assumptions C69_wifi_chain.
(* scheme 7: 64-QAM, rate 5/6; chunks of 100 bits, two of them; noise up to 1/2, variance 1/100 *)
Example C69_wifi_chain_witness : wifi_coding 7 = Ok (5, 6) /\ wifi_modem 7 = Ok (false, 64) /\ round_chunk (wifi_bits_per_symbol 64) 5 6 109 = 105 /\ (1 / 100 * ln (64 / 2) < 2 * (2 - 2 * (1 / 2)))%R.
Proof.
  split; [reflexivity|]. split; [reflexivity|]. split; [vm_compute; reflexivity|]. assert (H : (ln (64 / 2) < 100)%R). { apply exp_lt_inv. rewrite exp_ln by lra. apply (Rlt_trans _ (1 + 100)); [lra|]. apply exp_ineq1. lra. } lra.
Qed.

Theorem C69_wifi_link :
(* Wifi80211(mcs).link_performance over a complex AWGN channel whose noise draws are bounded: no bit error is counted, tx_max
     transmissions of frame_aggregation chunks are made at the first SNR and the other SNRs are skipped *)
  forall (garbage : regs) (dr : wifi_draws) (mcs p q m : Z) (psk : bool) (md : modem) (noise_std : option R) (channel : siso) (snr : R) (snrs : list R) (tx_max : nat) (err_min : Z)
         (send_chunk : option Z) (frames : nat) (stop : bool) (r : R),
    wifi_coding mcs = Ok (p, q) -> wifi_modem mcs = Ok (psk, m) -> wifi_get_modem mcs = Ok md -> siso_init noise_std (C1, true, 0%R) = Ok channel ->
    (forall t, shaped (rate_half 5 43 MSB) (d_scratch dr t)) -> 1 <= err_min ->
    let chunk := round_chunk (wifi_bits_per_symbol m) p q (match send_chunk with Some c => c | None => err_min end) in
    5 <= chunk * Z.of_nat frames < 2 ^ 48 ->
    let d := if psk then (2 * sin (PI / IZR m))%R else 2%R in
    let v := (2 * energy md / (IZR p / IZR q * Rpower 10 (snr / 10)))%R in
    (forall t i, (sqrt v / 2 * Cabs (mkC (d_n1 dr t i) (d_n2 dr t i)) <= r)%R) -> (v * ln (IZR m / 2) < d * (d - 2 * r))%R ->
    wifi_link_performance garbage dr mcs channel (snr :: snrs) tx_max err_min send_chunk frames stop =
      Ok ({| BER := Some (0, Z.of_nat tx_max * chunk); BE := repeat 0 tx_max; CE := repeat 0 tx_max; NC := repeat (Z.of_nat frames) tx_max |} ::
          repeat {| BER := None; BE := repeat 0 tx_max; CE := repeat 0 tx_max; NC := repeat 0 tx_max |} (length snrs)).
Proof. exact C69_wifi_link_proof. Qed.
Print Assumptions C69_wifi_link.
(* scheme 0 (BPSK, rate 1/2) at 20 dB with noise draws of magnitude 1: the variance is 1/25, the noise has magnitude 1/10 *)
Example C69_wifi_link_witness : wifi_coding 0 = Ok (1, 2) /\ wifi_modem 0 = Ok (true, 2) /\ (2 * 1 / (1 / 2 * Rpower 10 (20 / 10)) = / 25)%R /\ (sqrt (/ 25) / 2 * Cabs (mkC 1 0) <= 1 / 2)%R /\
  (/ 25 * ln (2 / 2) < 2 * sin (PI / 2) * (2 * sin (PI / 2) - 2 * (1 / 2)))%R /\ 5 <= round_chunk (wifi_bits_per_symbol 2) 1 2 50 * 2 < 2 ^ 48 /\ shaped (rate_half 5 43 MSB) (fun _ => {| pmetrics := repeat (Some 0%R) 2; index_array := repeat (0, 0) 64 |}).
Proof.
  split; [reflexivity|]. split; [reflexivity|]. split. { replace (20 / 10)%R with (INR 2) by (cbn [INR]; lra). rewrite Rpower_pow by lra. cbn [pow]. lra. }
  split. { replace (/ 25)%R with (1 / 5 * (1 / 5))%R by lra. rewrite sqrt_square by lra. unfold Cabs, Cnorm2. cbn [re im]. replace (1 * 1 + 0 * 0)%R with 1%R by ring. rewrite sqrt_1. lra. }
  split. { replace (2 / 2)%R with 1%R by lra. rewrite ln_1, sin_PI2. lra. } split; [vm_compute; split; [discriminate|reflexivity]|]. intros t. split; reflexivity.
Qed.

Theorem C69_hard :
(* convolutional code of distance d, any constellation of b bits, hard decisions: symbol errors at fewer than d / (2 b) positions are corrected *)
  forall (garbage : regs) (C : code) (tr : Trellis) (msg coded : list Z) (B : nat) (tb_depth : option nat) gp (gs : nat -> scratch Z) (d : Z) (c : list Cplx.C) (g : bool) (md : modem),
    trellis_of garbage C false = Ok tr -> fback C = None -> decodable C B gs -> usable C B tb_depth -> rate_ok (kk C) (outs C) = true ->
    Z.of_nat (length msg + 2 * MM C) * Z.of_nat (outs C) < 2 ^ 49 ->
    bits msg -> (length msg + MM C + MM C mod kk C = B * kk C)%nat -> (max_mem (TrellisSpec.memory C) * kk C <= MM C + MM C mod kk C)%nat ->
    conv_encode msg tr Term None = Ok coded -> window_distance C tr B tb_depth d ->
    modem_init c g = Ok md -> NoDup c -> (2 <= length c)%nat -> coded <> [] -> (length coded mod num_bits md = 0)%nat ->
    exists s, modulate md coded = Ok s /\
      forall (ys : list Cplx.C) (v : R) (bad : list nat), length ys = length s ->
        (forall k, (k < length s)%nat -> ~ In k bad -> closest c (nth k s C0) (nth k ys C0)) -> 2 * Z.of_nat (num_bits md * length bad) < d ->
        exists received caller, demodulate md ys Hard v = Ok (inl received) /\
          viterbi_decode Z.add Z.leb 0 hard received tr tb_depth gp gs = Ok (map Some (msg ++ repeat 0 (MM C + MM C mod kk C)), caller).
Proof. exact C69_hard_proof. Qed.
Print Assumptions C69_hard.
(* the (5, 7) code and message of C65_end_to_end_witness (distance 3, 16 coded bits) over two points: one symbol anywhere *)
Example C69_hard_witness : exists md, modem_init [C1; Copp C1] true = Ok md /\ NoDup [C1; Copp C1] /\ (16 mod num_bits md = 0)%nat /\ 2 * Z.of_nat (num_bits md * length [7%nat]) < 3 /\ closest [C1; Copp C1] C1 (mkC (1 / 10) 5).
Proof.
  destruct (C41_gray_labels_proof [C1; Copp C1] 1 eq_refl ltac:(lia)) as (md & l & E & EB & _). exists md. split; [exact E|]. split; [constructor; [intros [F|[]]; apply (f_equal re) in F; cbn in F; lra|constructor; [intros []|constructor]]|].
  rewrite EB. split; [reflexivity|]. split; [reflexivity|]. intros p [<-|[<-|[]]] Hne; [congruence|]. unfold Cabs, Cnorm2, Csub, C1, Copp. cbn [re im]. apply sqrt_lt_1_alt. lra.
Qed.

Theorem C69_soft :
(* soft decisions: noise of magnitude at most r on every symbol; both soft decoders (terminated) return the message *)
  forall (garbage : regs) (C : code) (tr : Trellis) (msg coded : list Z) (B : nat) (tb_depth : option nat) gp (gs : nat -> scratch R) (c : list Cplx.C) (g : bool) (md : modem) (d r v : R),
    trellis_of garbage C false = Ok tr -> fback C = None -> decodable C B gs -> usable C B tb_depth -> output_injective C -> rate_ok (kk C) (outs C) = true ->
    Z.of_nat (length msg + 2 * MM C) * Z.of_nat (outs C) < 2 ^ 49 ->
    bits msg -> (length msg + MM C + MM C mod kk C = B * kk C)%nat -> (max_mem (TrellisSpec.memory C) * kk C <= MM C + MM C mod kk C)%nat ->
    conv_encode msg tr Term None = Ok coded ->
    modem_init c g = Ok md -> NoDup c -> (2 <= length c)%nat -> coded <> [] -> (length coded mod num_bits md = 0)%nat ->
    (forall p p', In p c -> In p' c -> p <> p' -> (d <= Cabs (p - p')%C)%R) -> (0 < d)%R -> (0 < v)%R -> (v * ln (INR (2 ^ (num_bits md - 1))) < d * (d - 2 * r))%R ->
    exists s, modulate md coded = Ok s /\
      forall ys : list Cplx.C, Forall2 (fun x y => (Cabs (y - x)%C <= r)%R) s ys ->
        exists llrs caller caller', demodulate md ys Soft v = Ok (inr llrs) /\
          viterbi_decode Rplus Rleb 0%R soft llrs tr tb_depth gp gs = Ok (map Some (msg ++ repeat 0 (MM C + MM C mod kk C)), caller) /\
          viterbi_decode Rplus Rleb 0%R unquantized llrs tr tb_depth gp gs = Ok (map Some (msg ++ repeat 0 (MM C + MM C mod kk C)), caller').
Proof. exact C69_soft_proof. Qed.
Print Assumptions C69_soft.
(* the hypotheses on the code are those of C30_round_trip_witness, those on the constellation those of C68_soft_witness *)
Example C69_soft_witness : exists md, modem_init [C1; Copp C1] true = Ok md /\ (12 mod num_bits md = 0)%nat /\ (3 * ln (INR (2 ^ (num_bits md - 1))) < 2 * (2 - 2 * (9 / 10)))%R.
Proof.
  destruct (C41_gray_labels_proof [C1; Copp C1] 1 eq_refl ltac:(lia)) as (md & l & E & EB & _). exists md. split; [exact E|]. rewrite EB. split; [reflexivity|]. cbn [Nat.sub Nat.pow]. change (INR 1) with 1%R. rewrite ln_1. lra.
Qed.

Theorem C69_ldpc :
(* LDPC: encode, modulate, noise of magnitude at most r, soft demodulation; the decoder, given the NEGATED soft outputs, returns the
     coded blocks, whatever the algorithm and the number of iterations *)
  forall (p : LdpcModel.ldpc) (H : LdpcModel.arr2) (c : list C) (g : bool) (md : modem) (msg : list Z) (d r v : R) (a : LdpcDecModel.algorithm) (n_iters : nat),
    LdpcSpec.describes p H -> (2 <= length (LdpcModel.a_rows H) < LdpcModel.a_cols H)%nat -> LdpcSpec.int_invertible H \/ LdpcSpec.unit_lower H \/ LdpcSpec.unit_upper H ->
    LdpcModel.p_gen p = None \/ LdpcModel.p_matrix p = None -> bits msg -> msg <> [] ->
    modem_init c g = Ok md -> NoDup c -> (2 <= length c)%nat ->
    (forall x x', In x c -> In x' c -> x <> x' -> (d <= Cabs (x - x')%C)%R) -> (0 < d)%R -> (0 < v)%R -> (v * ln (INR (2 ^ (num_bits md - 1))) < d * (d - 2 * r))%R ->
    exists (p' : LdpcModel.ldpc) (blocks : list (list Z)), LdpcModel.triang_encode msg p true = (p', Ok blocks) /\ LdpcSpec.coded H msg blocks /\
      ((length (concat blocks) mod num_bits md = 0)%nat ->
       exists s, modulate md (concat blocks) = Ok s /\
         forall ys : list C, Forall2 (fun x y => (Cabs (y - x)%C <= r)%R) s ys ->
           exists llrs, demodulate md ys Soft v = Ok (inr llrs) /\
             (exists out, snd (LdpcDecModel.ldpc_bp_decode LdpcBPSpec.real_ops (map Ropp llrs) p' a n_iters) = Ok out /\ map (fun o => map Z.b2z (fst o)) out = blocks) /\
             (* without the negation, when every check involves an even number of bits: every decoded bit is wrong *)
             ((forall i, (i < length (LdpcModel.a_rows H))%nat -> Zsum (nth i (LdpcModel.a_rows H) []) mod 2 = 0) ->
              exists out, snd (LdpcDecModel.ldpc_bp_decode LdpcBPSpec.real_ops llrs p' a n_iters) = Ok out /\ map (fun o => map Z.b2z (fst o)) out = map (map (fun b => 1 - b)) blocks)).
Proof. exact C69_ldpc_proof. Qed.
Print Assumptions C69_ldpc.
(* a (5, 3) code whose two checks involve four bits each *)
Definition evH : LdpcModel.arr2 := {| LdpcModel.a_cols := 5; LdpcModel.a_rows := [[1; 1; 1; 1; 0]; [1; 1; 0; 1; 1]] |}.
Definition evP : LdpcModel.ldpc := {| LdpcModel.n_vnodes := 5; LdpcModel.n_cnodes := 2; LdpcModel.max_vdeg := 2; LdpcModel.max_cdeg := 4; LdpcModel.v_adj := []; LdpcModel.c_adj := [0; 1; 2; 3; 0; 1; 3; 4]; LdpcModel.c_map := [];
  LdpcModel.v_map := []; LdpcModel.v_deg := []; LdpcModel.c_deg := [4; 4]; LdpcModel.p_matrix := None; LdpcModel.p_gen := None |}.
Example C69_ldpc_witness : LdpcSpec.describes evP evH /\ LdpcSpec.unit_lower evH /\ snd (LdpcModel.triang_encode [1; 0; 1; 1] evP true) = Ok [[1; 0; 1; 0; 1]; [1; 0; 0; 1; 0]] /\
  (forall i, (i < length (LdpcModel.a_rows evH))%nat -> Zsum (nth i (LdpcModel.a_rows evH) []) mod 2 = 0).
Proof.
  split; [apply LdpcCheck.describesb_ok; vm_compute; reflexivity|]. split. { intros i l Hi Hl Hil. cbn in Hi, Hl. do 2 (destruct i as [|i]; [do 2 (destruct l as [|l]; [first [reflexivity|lia]|]); lia|]). lia. }
  split; [vm_compute; reflexivity|]. intros i Hi. cbn in Hi. do 2 (destruct i as [|i]; [reflexivity|]). lia.
Qed.

Theorem C69_wifi_default_channel_refuted :
(* with the default (real) fading parameters of SISOFlatChannel, link_performance raises TypeError at the first transmission,
     although Wifi80211 accepts every SISO channel: modulated symbols are complex *)
  forall (garbage : regs) (dr : wifi_draws) (mcs p q m : Z) (psk : bool) (noise_std : option R) (channel : siso) (snr : R) (snrs : list R) (tx_max : nat) (err_min : Z)
         (send_chunk : option Z) (frames : nat) (stop : bool),
    wifi_coding mcs = Ok (p, q) -> wifi_modem mcs = Ok (psk, m) -> siso_init noise_std (C1, false, 0%R) = Ok channel -> (1 <= tx_max)%nat -> (1 <= frames)%nat -> 0 <= err_min ->
    round_chunk (wifi_bits_per_symbol m) p q (match send_chunk with Some c => c | None => err_min end) * Z.of_nat frames < 2 ^ 48 ->
    wifi_link_performance garbage dr mcs channel (snr :: snrs) tx_max err_min send_chunk frames stop = Err TypeError.
Proof. exact C69_wifi_default_channel_refuted_proof. Qed.
Print Assumptions C69_wifi_default_channel_refuted.
Example C69_default_channel_witness : exists channel, siso_init None (C1, false, 0%R) = Ok channel /\ wifi_coding 3 = Ok (1, 2) /\ wifi_modem 3 = Ok (false, 16).
Proof. eexists. split; [|split; reflexivity]. unfold siso_init, siso_set. destruct (Req_EM_T _ 1) as [_|F]; [reflexivity|]. exfalso. apply F. unfold Cabs, Cnorm2. cbn. replace (1 * 1 + 0 * 0)%R with 1%R by ring. rewrite sqrt_1. ring. Qed.

(* ---------------------------------------------------------------- C70 *)

Theorem C70_variance :
(* after set_SNR_lin: noise_std ** 2, which the link model hands to the receiver, against the mean noise power P of C53 *)
  forall (ch : siso) (mi : mimo) (snr rate es : R), (0 < snr)%R -> (0 < rate)%R -> (0 <= es)%R ->
    let P := (es / (rate * snr))%R in
    (exists ch1 sd, siso_do ch (SSnrLin snr rate es) = (ch1, Ok tt) /\ s_std ch1 = Some (Some sd) /\ (sd * sd = (if s_complex ch then 2 else 1) * P)%R) /\
    (exists mi1 sd, mimo_do mi (MSnrLin snr rate es) = (mi1, Ok tt) /\ m_std mi1 = Some (Some sd) /\ (sd * sd = (if m_complex mi then 2 else 1) * (INR (t_nb mi) * P))%R).
Proof. exact C70_variance_proof. Qed.
Print Assumptions C70_variance.

Theorem C70_llr :
(* two points: soft demodulation with that variance returns half of the log-likelihood ratio of the channel when the channel is
     complex (density exp(-|z|^2 / P) up to a constant), twice the ratio when it is real (density exp(-z^2 / (2 P))) *)
  forall (ch : siso) (snr rate es : R) (p0 p1 y : C), (0 < snr)%R -> (0 < rate)%R -> (0 < es)%R ->
    let P := (es / (rate * snr))%R in
    exists ch1 sd md llr, siso_do ch (SSnrLin snr rate es) = (ch1, Ok tt) /\ s_std ch1 = Some (Some sd) /\ modem_init [p0; p1] true = Ok md /\
      demodulate md [y] Soft (sd * sd)%R = Ok (inr [llr]) /\
      (s_complex ch = true -> llr = (1 / 2 * ln (exp (- Cnorm2 (y - p1)%C / P) / exp (- Cnorm2 (y - p0)%C / P)))%R) /\
      (s_complex ch = false -> llr = (2 * ln (exp (- Cnorm2 (y - p1)%C / (2 * P)) / exp (- Cnorm2 (y - p0)%C / (2 * P))))%R).
Proof. exact C70_llr_proof. Qed.
Print Assumptions C70_llr.
Example C70_witness : exists ch, siso_init None (C1, true, 0%R) = Ok ch /\ s_complex ch = true.
Proof. unfold siso_init, siso_set. destruct (Req_EM_T _ 1) as [_|F]; [eexists; split; reflexivity|]. exfalso. apply F. unfold Cabs, Cnorm2. cbn. replace (1 * 1 + 0 * 0)%R with 1%R by ring. rewrite sqrt_1. ring. Qed.

(* Property C77: LDPC-coded MIMO links. *)
From Coq Require Import Reals Lra Permutation.
From Verif Require Import Base UtilModel LinksModel LinksSpec Cplx ModemModel ModemSpec MimoModel MimoSpec ChannelModel ChannelSpec UncodedLinkModel UncodedLinkSpec LdpcLinkModel LdpcLinkSpec
  MimoTop ModemTop ModemProofs ModemNoise BestFirstRun MimoProofs P_UncodedLink LdpcLinkTop.
From Verif Require LdpcModel LdpcSpec LdpcTop LdpcDecModel LdpcBPSpec P_Ldpc.
Local Open Scope Z_scope.

(* ---------------------------------------------------------------- C77 *)

Theorem C77_any_detector :
(* an LDPC-coded MIMO link with a soft detector whose values have the right signs for every drawn channel matrix and noise vector: no
     errors, in both simulation functions, whatever the decoding algorithm and the number of iterations *)
  forall (dr : mimo_draws) sqrtm (c : list C) (g : bool) (md : modem) detect (algo : LdpcDecModel.algorithm) (n_iters : nat) (p q : Z) empty (ch : mimo) (code start : LdpcModel.ldpc) (H : LdpcModel.arr2)
         (snr : R) (snrs : list R) (tx_max ncps fuel : nat) (send_max err_min : Z) (send_chunk : option Z) (stop : bool),
    modem_init c g = Ok md -> NoDup c -> (2 <= length c)%nat -> (1 <= t_nb ch)%nat -> m_complex ch = true -> m_nan (f_mean (m_fading ch)) = false -> 1 <= err_min -> (1 <= ncps)%nat ->
    (* the code: n columns, k = n minus the number of rows, k/n = p/q; the dictionary as it is after get_ldpc_code_params without or with the matrices *)
    let n := LdpcModel.a_cols H in let k := (n - length (LdpcModel.a_rows H))%nat in
    LdpcSpec.describes code H -> (2 <= length (LdpcModel.a_rows H) < n)%nat -> LdpcSpec.int_invertible H \/ LdpcSpec.unit_lower H \/ LdpcSpec.unit_upper H ->
    LdpcModel.p_gen code = None \/ LdpcModel.p_matrix code = None -> start = code \/ start = fst (LdpcModel.build_matrix code) ->
    In (p, q) [(1, 2); (2, 3); (3, 4); (5, 6)] -> Z.of_nat k * q = Z.of_nat n * p ->
    let s := sqrt (2 * INR (t_nb ch) * energy md / (IZR p / IZR q * Rpower 10 (snr / 10))) in
    let chunk := round_chunk (Z.of_nat (num_bits md) * Z.of_nat (t_nb ch)) p q (match send_chunk with Some n => n | None => err_min end) in
    (Z.of_nat k | chunk) -> chunk * Z.of_nat ncps < 2 ^ 49 ->
    (forall t a bs x, bits bs -> length bs = (t_nb ch * num_bits md)%nat -> modulate md bs = Ok x -> let M := drawn_matrix dr sqrtm ch t a in
       exists l, detect (S t) (map (fun i => (apply_row (nth i M []) x + drawn_noise dr s t a i)%C) (seq 0 (r_nb ch))) M = Ok l /\ right_signs bs l) ->
    coded_full_metrics dr sqrtm md detect algo n_iters k p q empty ch start (snr :: snrs) tx_max err_min send_chunk ncps stop =
      Ok ({| BER := Some (0, Z.of_nat tx_max * chunk); BE := repeat 0 tx_max; CE := repeat 0 tx_max; NC := repeat (Z.of_nat ncps) tx_max |} ::
          repeat {| BER := None; BE := repeat 0 tx_max; CE := repeat 0 tx_max; NC := repeat 0 tx_max |} (length snrs)) /\
    (1 <= send_max -> (Z.to_nat (bits_sent send_max chunk / chunk) < fuel)%nat ->
     coded_performance dr sqrtm md detect algo n_iters k p q empty ch start fuel (snr :: snrs) send_max err_min send_chunk = Ok (Some (0, bits_sent send_max chunk) :: repeat None (length snrs))).
Proof. exact C77_any_detector_proof. Qed.
Print Assumptions C77_any_detector.

Theorem C77_best_first :
(* the best-first receiver: as many receive as transmit antennas, stacks of any positive sizes, every noise vector shorter than half of
     |M v| for every v whose last non-zero entry is a difference of two points *)
  forall (dr : mimo_draws) sqrtm (c : list C) (g : bool) (md : modem) argsort qr (sizes : list nat) (llr_max : R) (rounds : nat) (algo : LdpcDecModel.algorithm) (n_iters : nat) (p q : Z) empty (ch : mimo)
         (code start : LdpcModel.ldpc) (H : LdpcModel.arr2) (snr : R) (snrs : list R) (tx_max ncps fuel : nat) (send_max err_min : Z) (send_chunk : option Z) (stop : bool),
    modem_init c g = Ok md -> NoDup c -> (2 <= length c)%nat -> (2 <= t_nb ch)%nat -> r_nb ch = t_nb ch -> m_complex ch = true -> m_nan (f_mean (m_fading ch)) = false -> 1 <= err_min -> (1 <= ncps)%nat ->
    let n := LdpcModel.a_cols H in let k := (n - length (LdpcModel.a_rows H))%nat in
    LdpcSpec.describes code H -> (2 <= length (LdpcModel.a_rows H) < n)%nat -> LdpcSpec.int_invertible H \/ LdpcSpec.unit_lower H \/ LdpcSpec.unit_upper H ->
    LdpcModel.p_gen code = None \/ LdpcModel.p_matrix code = None -> start = code \/ start = fst (LdpcModel.build_matrix code) ->
    In (p, q) [(1, 2); (2, 3); (3, 4); (5, 6)] -> Z.of_nat k * q = Z.of_nat n * p ->
    sorting argsort -> (forall t a, let M := drawn_matrix dr sqrtm ch t a in is_qr M (t_nb ch) (fst (qr M)) (snd (qr M))) ->
    (t_nb ch - 1 <= length sizes)%nat -> Forall (fun z => (1 <= z)%nat) sizes -> (0 < llr_max)%R -> (length c ^ t_nb ch <= rounds)%nat ->
    let s := sqrt (2 * INR (t_nb ch) * energy md / (IZR p / IZR q * Rpower 10 (snr / 10))) in
    let chunk := round_chunk (Z.of_nat (num_bits md) * Z.of_nat (t_nb ch)) p q (match send_chunk with Some n => n | None => err_min end) in
    (Z.of_nat k | chunk) -> chunk * Z.of_nat ncps < 2 ^ 49 ->
    (forall t a, clear_successive (noise_energy dr ch s t a) (drawn_matrix dr sqrtm ch t a) c (t_nb ch)) ->
    let receiver := best_first_detect argsort qr md (t_nb ch) sizes llr_max rounds in
    coded_full_metrics dr sqrtm md receiver algo n_iters k p q empty ch start (snr :: snrs) tx_max err_min send_chunk ncps stop =
      Ok ({| BER := Some (0, Z.of_nat tx_max * chunk); BE := repeat 0 tx_max; CE := repeat 0 tx_max; NC := repeat (Z.of_nat ncps) tx_max |} ::
          repeat {| BER := None; BE := repeat 0 tx_max; CE := repeat 0 tx_max; NC := repeat 0 tx_max |} (length snrs)) /\
    (1 <= send_max -> (Z.to_nat (bits_sent send_max chunk / chunk) < fuel)%nat ->
     coded_performance dr sqrtm md receiver algo n_iters k p q empty ch start fuel (snr :: snrs) send_max err_min send_chunk = Ok (Some (0, bits_sent send_max chunk) :: repeat None (length snrs))).
Proof. exact C77_best_first_proof. Qed.
Print Assumptions C77_best_first.
(* two antennas on each side, BPSK, 0 dB, the (6, 3) code of P_Ldpc at rate 1/2: channel matrix 1, noise of energy 1/4 per vector, stacks of size 1 *)
Definition w2dr : mimo_draws := {| u_bits := fun t i => Nat.odd (t + i); u_n1 := fun _ _ _ => (1 / 4)%R; u_n2 := fun _ _ _ => 0%R;
                                   u_g1 := fun _ _ j k => if (j =? k)%nat then sqrt 2 else 0%R; u_g2 := fun _ _ _ _ => 0%R |}.
Example C77_witness : exists md, modem_init [C1; mkC (-1) 0] true = Ok md /\ NoDup [C1; mkC (-1) 0] /\ t_nb wch = 2%nat /\ r_nb wch = 2%nat /\ m_complex wch = true /\ m_nan (f_mean (m_fading wch)) = false /\ sorting rsort /\ is_qr wid 2 wid wid /\
  LdpcSpec.describes P_Ldpc.exP P_Ldpc.exH /\ LdpcModel.a_cols P_Ldpc.exH = 6%nat /\ length (LdpcModel.a_rows P_Ldpc.exH) = 3%nat /\ LdpcSpec.unit_lower P_Ldpc.exH /\ LdpcModel.p_gen P_Ldpc.exP = None /\
  (Z.of_nat 3 | round_chunk (Z.of_nat (num_bits md) * Z.of_nat (t_nb wch)) 1 2 12) /\
  let s := sqrt (2 * INR (t_nb wch) * energy md / (IZR 1 / IZR 2 * Rpower 10 (0 / 10))) in
  forall t a, drawn_matrix w2dr (fun m => (m, true)) wch t a = wid /\ noise_energy w2dr wch s t a = (1 / 4)%R /\ clear_successive (noise_energy w2dr wch s t a) (drawn_matrix w2dr (fun m => (m, true)) wch t a) [C1; mkC (-1) 0] 2.
Proof.
  destruct wch_eq as (E1 & E2 & E3 & E4). destruct C76_witness as (md & EM & ND & _ & _ & Hnan & Hso & Hqr & _ & W). exists md. split; [exact EM|]. split; [exact ND|]. do 3 (split; [assumption|]). split; [exact Hnan|]. split; [exact Hso|]. split; [exact Hqr|].
  destruct P_Ldpc.C37_witness as (D1 & _ & D3 & D4 & _). split; [exact D1|]. split; [reflexivity|]. split; [reflexivity|]. split; [exact D3|]. split; [exact D4|].
  split. { assert (NB : num_bits md = 1%nat) by (destruct (init_ready _ _ _ EM ND ltac:(cbn; lia)) as (HW & _ & _ & HP); pose proof (Permutation.Permutation_length HP) as PL; unfold modem_init in EM; revert EM; cbn; intros EM; injection EM as <-; reflexivity). rewrite NB, E1. exists 4. reflexivity. }
  assert (HE : energy md = 1%R). { rewrite (C44_energy_proof _ _ _ EM). cbn [map Rsum fold_right length]. unfold Cnorm2, C1. cbn [re im INR]. field. }
  cbv zeta. set (s := sqrt _). assert (Es : (s * s = 8)%R). { unfold s. rewrite E1, HE. replace (0 / 10)%R with 0%R by field. rewrite Rpower_O by lra. cbn [INR]. replace (2 * (1 + 1) * 1 / (1 / 2 * 1))%R with 8%R by field. apply sqrt_sqrt. lra. }
  intros t a. assert (EMx : drawn_matrix w2dr (fun m => (m, true)) wch t a = wid) by (change (drawn_matrix wdr (fun m => (m, true)) wch t a = wid); apply w_matrix). split; [exact EMx|].
  assert (EN : noise_energy w2dr wch s t a = (1 / 4)%R). { unfold noise_energy, drawn_noise. rewrite E2. cbn [seq map w2dr u_n1 u_n2 Rsum fold_right]. unfold Cnorm2, Cscale. cbn [re im]. replace (s / 2 * (1 / 4) * (s / 2 * (1 / 4)) + s / 2 * 0 * (s / 2 * 0) + (s / 2 * (1 / 4) * (s / 2 * (1 / 4)) + s / 2 * 0 * (s / 2 * 0) + 0))%R with (s * s * (1 / 32))%R by field. rewrite Es. field. }
  split; [exact EN|]. rewrite EN, EMx. destruct (W t a) as (_ & WN & WC). rewrite WN, w_matrix in WC. intros v j p p' A1 A2 A3 A4 A5 A6 A7. specialize (WC v j p p' A1 A2 A3 A4 A5 A6 A7). lra.
Qed.

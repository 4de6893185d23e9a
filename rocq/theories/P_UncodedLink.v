(* Uncoded links: property C76. *)
From Coq Require Import Reals Lra.
From Verif Require Import Base LinksModel LinksSpec Cplx ModemModel ModemSpec MimoModel MimoSpec ChannelModel UncodedLinkModel UncodedLinkSpec UncodedLinkTop.
From Verif Require Import ModemTop BestFirstRun ChannelProofs ChannelHist ChannelFading ChannelTop.
Local Open Scope Z_scope.

(* ---------------------------------------------------------------- C76 *)

Theorem C76_any_detector :
(* a MIMO link without code and a detector that, for every drawn channel matrix and noise vector, finds the sent vector: no errors,
     in both simulation functions *)
  forall (dr : mimo_draws) sqrtm (c : list C) (g : bool) (md : modem) detect empty (ch : mimo) (snr : R) (snrs : list R) (tx_max ncps fuel : nat) (send_max err_min : Z) (send_chunk : option Z) (stop : bool),
    modem_init c g = Ok md -> NoDup c -> (2 <= length c)%nat -> (1 <= t_nb ch)%nat -> m_complex ch = true -> m_nan (f_mean (m_fading ch)) = false -> 1 <= err_min -> (1 <= ncps)%nat ->
    let s := sqrt (2 * INR (t_nb ch) * energy md / Rpower 10 (snr / 10)) in
    let chunk := round_chunk (Z.of_nat (num_bits md) * Z.of_nat (t_nb ch)) 1 1 (match send_chunk with Some n => n | None => err_min end) in
    (forall t a x, vector_of c (t_nb ch) x -> let H := drawn_matrix dr sqrtm ch t a in
       detect (S t) (map (fun i => (apply_row (nth i H []) x + drawn_noise dr s t a i)%C) (seq 0 (r_nb ch))) H = Ok x) ->
    mimo_full_metrics dr sqrtm md detect empty ch (snr :: snrs) tx_max err_min send_chunk ncps stop =
      Ok ({| BER := Some (0, Z.of_nat tx_max * chunk); BE := repeat 0 tx_max; CE := repeat 0 tx_max; NC := repeat (Z.of_nat ncps) tx_max |} ::
          repeat {| BER := None; BE := repeat 0 tx_max; CE := repeat 0 tx_max; NC := repeat 0 tx_max |} (length snrs)) /\
    (1 <= send_max -> (Z.to_nat (bits_sent send_max chunk / chunk) < fuel)%nat ->
     mimo_performance dr sqrtm md detect empty ch fuel (snr :: snrs) send_max err_min send_chunk = Ok (Some (0, bits_sent send_max chunk) :: repeat None (length snrs))).
Proof. exact C76_any_detector_proof. Qed.
Print Assumptions C76_any_detector.

Theorem C76_ml :
(* the maximum-likelihood receiver: every noise vector shorter than half the distance between any two noise-free signals *)
  forall (dr : mimo_draws) sqrtm (c : list C) (g : bool) (md : modem) empty (ch : mimo) (snr : R) (snrs : list R) (tx_max ncps fuel : nat) (send_max err_min : Z) (send_chunk : option Z) (stop : bool),
    modem_init c g = Ok md -> NoDup c -> (2 <= length c)%nat -> (1 <= t_nb ch)%nat -> m_complex ch = true -> m_nan (f_mean (m_fading ch)) = false -> 1 <= err_min -> (1 <= ncps)%nat ->
    let s := sqrt (2 * INR (t_nb ch) * energy md / Rpower 10 (snr / 10)) in
    let chunk := round_chunk (Z.of_nat (num_bits md) * Z.of_nat (t_nb ch)) 1 1 (match send_chunk with Some n => n | None => err_min end) in
    (forall t a, clear_ml (noise_energy dr ch s t a) (drawn_matrix dr sqrtm ch t a) c (t_nb ch)) ->
    let receiver := ml_detect md (t_nb ch) in
    mimo_full_metrics dr sqrtm md receiver empty ch (snr :: snrs) tx_max err_min send_chunk ncps stop =
      Ok ({| BER := Some (0, Z.of_nat tx_max * chunk); BE := repeat 0 tx_max; CE := repeat 0 tx_max; NC := repeat (Z.of_nat ncps) tx_max |} ::
          repeat {| BER := None; BE := repeat 0 tx_max; CE := repeat 0 tx_max; NC := repeat 0 tx_max |} (length snrs)) /\
    (1 <= send_max -> (Z.to_nat (bits_sent send_max chunk / chunk) < fuel)%nat ->
     mimo_performance dr sqrtm md receiver empty ch fuel (snr :: snrs) send_max err_min send_chunk = Ok (Some (0, bits_sent send_max chunk) :: repeat None (length snrs))).
Proof. exact C76_ml_proof. Qed.
Print Assumptions C76_ml.

Theorem C76_kbest :
(* the K-best receiver: under the same condition if K is at least m^(nb_tx - 1); for any K >= 1 if every noise vector is shorter than
     half of |H v| for every v whose last non-zero entry is a difference of two points *)
  forall (dr : mimo_draws) sqrtm (c : list C) (g : bool) (md : modem) argsort qr garbage (K : nat) empty (ch : mimo) (snr : R) (snrs : list R) (tx_max ncps fuel : nat) (send_max err_min : Z) (send_chunk : option Z) (stop : bool),
    modem_init c g = Ok md -> NoDup c -> (2 <= length c)%nat -> (1 <= t_nb ch <= r_nb ch)%nat -> m_complex ch = true -> m_nan (f_mean (m_fading ch)) = false -> 1 <= err_min -> (1 <= ncps)%nat ->
    sorting argsort -> (forall t, length (garbage t) = t_nb ch) -> (forall t a, let H := drawn_matrix dr sqrtm ch t a in is_qr H (t_nb ch) (fst (qr H)) (snd (qr H))) ->
    let s := sqrt (2 * INR (t_nb ch) * energy md / Rpower 10 (snr / 10)) in
    let chunk := round_chunk (Z.of_nat (num_bits md) * Z.of_nat (t_nb ch)) 1 1 (match send_chunk with Some n => n | None => err_min end) in
    ((length c ^ (t_nb ch - 1) <= K)%nat /\ (forall t a, clear_ml (noise_energy dr ch s t a) (drawn_matrix dr sqrtm ch t a) c (t_nb ch)) \/
     (1 <= K)%nat /\ (forall t a, clear_successive (noise_energy dr ch s t a) (drawn_matrix dr sqrtm ch t a) c (t_nb ch))) ->
    let receiver := kbest_detect argsort qr garbage md (t_nb ch) K in
    mimo_full_metrics dr sqrtm md receiver empty ch (snr :: snrs) tx_max err_min send_chunk ncps stop =
      Ok ({| BER := Some (0, Z.of_nat tx_max * chunk); BE := repeat 0 tx_max; CE := repeat 0 tx_max; NC := repeat (Z.of_nat ncps) tx_max |} ::
          repeat {| BER := None; BE := repeat 0 tx_max; CE := repeat 0 tx_max; NC := repeat 0 tx_max |} (length snrs)) /\
    (1 <= send_max -> (Z.to_nat (bits_sent send_max chunk / chunk) < fuel)%nat ->
     mimo_performance dr sqrtm md receiver empty ch fuel (snr :: snrs) send_max err_min send_chunk = Ok (Some (0, bits_sent send_max chunk) :: repeat None (length snrs))).
Proof. exact C76_kbest_proof. Qed.
Print Assumptions C76_kbest.

Theorem C76_siso :
(* a SISO link without code and without fading, hard decisions: every noise value smaller in magnitude than half the distance of the
     constellation *)
  forall (dr : siso_draws) (c : list C) (g : bool) (md : modem) (noise_std : option R) (channel : siso) (d snr : R) (snrs : list R) (tx_max ncps fuel : nat) (send_max err_min : Z) (send_chunk : option Z) (stop : bool),
    modem_init c g = Ok md -> NoDup c -> (2 <= length c)%nat -> siso_init noise_std (C1, true, 0%R) = Ok channel -> 1 <= err_min -> (1 <= ncps)%nat ->
    (forall p p', In p c -> In p' c -> p <> p' -> (d <= Cabs (p - p')%C)%R) ->
    let s := sqrt (2 * energy md / Rpower 10 (snr / 10)) in
    let chunk := round_chunk (Z.of_nat (num_bits md)) 1 1 (match send_chunk with Some n => n | None => err_min end) in
    (forall t i, (s * Cabs (mkC (b_n1 dr t i) (b_n2 dr t i)) < d)%R) ->
    siso_full_metrics dr md channel (snr :: snrs) tx_max err_min send_chunk ncps stop =
      Ok ({| BER := Some (0, Z.of_nat tx_max * chunk); BE := repeat 0 tx_max; CE := repeat 0 tx_max; NC := repeat (Z.of_nat ncps) tx_max |} ::
          repeat {| BER := None; BE := repeat 0 tx_max; CE := repeat 0 tx_max; NC := repeat 0 tx_max |} (length snrs)) /\
    (1 <= send_max -> (Z.to_nat (bits_sent send_max chunk / chunk) < fuel)%nat ->
     siso_performance dr md channel fuel (snr :: snrs) send_max err_min send_chunk = Ok (Some (0, bits_sent send_max chunk) :: repeat None (length snrs))).
Proof. exact C76_siso_proof. Qed.
Print Assumptions C76_siso.

Theorem C76_bpsk :
(* BPSK without code and without fading, hard decisions, any draws: link_performance counts exactly the bits whose noise crosses the
     origin, every transmission with its own draws *)
  forall (dr : siso_draws) (md : modem) (noise_std : option R) (channel : siso) (snrs : list R) (fuel : nat) (send_max err_min : Z) (send_chunk : option Z),
    psk_modem 2 = Ok md -> siso_init noise_std (C1, true, 0%R) = Ok channel -> 1 <= err_min -> 1 <= send_max -> (Z.to_nat send_max < fuel)%nat ->
    let n := Z.max 1 (match send_chunk with Some c => c | None => err_min end) in
    exists counts : list nat, (length counts <= length snrs)%nat /\ (snrs <> [] -> counts <> []) /\
      let first := fun j => fold_right Nat.add 0%nat (firstn j counts) in
      let errors := fun j k => bpsk_errors dr (nth j snrs 0%R) (Z.to_nat n) (first j) k in
      siso_performance dr md channel fuel snrs send_max err_min send_chunk =
        Ok (map (fun j => Some (errors j (nth j counts 0%nat), n * Z.of_nat (nth j counts 0%nat))) (seq 0 (length counts)) ++ repeat None (length snrs - length counts)) /\
      forall j, (j < length counts)%nat -> let c := nth j counts 0%nat in (1 <= c)%nat /\ (send_max <= n * Z.of_nat c \/ err_min <= errors j c) /\
        (forall k, (k < c)%nat -> n * Z.of_nat k < send_max /\ errors j k < err_min) /\ ((S j < length snrs)%nat -> (length counts = S j <-> errors j c < err_min)).
Proof. exact C76_bpsk_proof. Qed.
Print Assumptions C76_bpsk.
(* four bits 1, 1, 1, 1 per transmission at 0 dB, the draw 3 on the second one: one error per transmission, so two transmissions for err_min = 2 *)
Definition wbpsk : siso_draws := {| b_bits := fun _ _ => true; b_n1 := fun _ i => if (i =? 1)%nat then 3%R else 0%R; b_n2 := fun _ _ => 0%R; b_g1 := fun _ _ => 0%R; b_g2 := fun _ _ => 0%R |}.
Example C76_bpsk_witness : exists md channel, psk_modem 2 = Ok md /\ siso_init None (C1, true, 0%R) = Ok channel /\ (forall t k, bpsk_errors wbpsk 0 4 t k = Z.of_nat k) /\
  siso_performance wbpsk md channel 101 [0%R] 100 2 (Some 4) = Ok [Some (2, 8)].
Proof.
  destruct (psk_modem 2) as [md|e] eqn:EM; [|discriminate EM]. assert (EC : exists ch, siso_init None (C1, true, 0%R) = Ok ch).
  { unfold siso_init, siso_set. destruct (Req_EM_T _ 1) as [_|F]; [eexists; reflexivity|]. exfalso. apply F. unfold Cabs, Cnorm2, C1. cbn [re im fst snd]. replace (1 * 1 + 0 * 0)%R with 1%R by ring. rewrite sqrt_1. ring. }
  destruct EC as [ch EC]. exists md, ch. split; [reflexivity|]. split; [exact EC|].
  assert (HE : forall t k, bpsk_errors wbpsk 0 4 t k = Z.of_nat k).
  { assert (E2 : (sqrt (2 / Rpower 10 (0 / 10)) = sqrt 2)%R) by (replace (0 / 10)%R with 0%R by field; rewrite Rpower_O by lra; f_equal; field). assert (S2 : (1 < sqrt 2)%R) by (rewrite <- sqrt_1 at 1; apply sqrt_lt_1_alt; lra).
    intros t k. unfold bpsk_errors. revert t. induction k as [|k IH]; intros t; [reflexivity|]. cbn [seq map]. change (Zsum (?a :: ?l)) with (a + Zsum l). rewrite IH. rewrite Nat2Z.inj_succ.
    assert (F : filter (bpsk_wrong wbpsk 0 t) (seq 0 4) = [1%nat]).
    { cbn [seq filter]. unfold bpsk_wrong. cbn [wbpsk b_bits b_n1 Nat.eqb]. rewrite E2. destruct (Rle_dec 1 (sqrt 2 / 2 * 0)) as [F|_]; [exfalso; lra|]. destruct (Rle_dec 1 (sqrt 2 / 2 * 3)) as [_|F]; [reflexivity|exfalso; lra]. }
    change [0%nat; 1%nat; 2%nat; 3%nat] with (seq 0 4). rewrite F. cbn [length]. lia. }
  split; [exact HE|].
  destruct (C76_bpsk wbpsk md None ch [0%R] 101 100 2 (Some 4) EM EC ltac:(lia) ltac:(lia) ltac:(vm_compute; lia)) as (counts & H1 & H2 & H3 & H4). cbv zeta in H3, H4. change (Z.max 1 4) with 4 in *. change (Z.to_nat 4) with 4%nat in *.
  destruct counts as [|c [|? ?]]; [exfalso; apply H2; [discriminate|reflexivity]| |cbn [length] in H1; lia]. clear H1 H2. rewrite H3. cbn [length seq map nth Nat.sub repeat app firstn fold_right].
  destruct (H4 0%nat ltac:(cbn; lia)) as (Q1 & Q2 & Q3 & _). cbn [nth firstn fold_right] in Q1, Q2, Q3. rewrite HE in *. assert (c = 2%nat) as ->; [|reflexivity].
  destruct (Nat.le_gt_cases c 1) as [L|L]; [exfalso; lia|]. destruct (Nat.eq_dec c 2) as [|N]; [assumption|]. exfalso. destruct (Q3 2%nat ltac:(lia)) as [_ Q]. rewrite HE in Q. lia.
Qed.

(* two antennas on each side, BPSK, 0 dB: channel matrix 1, noise 1/2 on both antennas; K = 1 *)
Definition wch : mimo := fst (uncorr_rayleigh {| t_nb := 2; r_nb := 2; m_std := None; m_fading := {| f_mean := plain (zeros 2 2) false; f_rt := identity 2; f_rr := identity 2 |}; m_complex := false;
                                 m_noises := None; m_gains := None; m_unnoisy := None |} true).
Definition wdr : mimo_draws := {| u_bits := fun t i => Nat.odd (t + i); u_n1 := fun _ _ _ => (1 / 2)%R; u_n2 := fun _ _ _ => 0%R;
                                  u_g1 := fun _ _ j k => if (j =? k)%nat then sqrt 2 else 0%R; u_g2 := fun _ _ _ _ => 0%R |}.
Definition wid : list (list C) := [[C1; C0]; [C0; C1]].
Lemma wch_eq : t_nb wch = 2%nat /\ r_nb wch = 2%nat /\ m_complex wch = true /\ m_fading wch = {| f_mean := plain (zeros 2 2) true; f_rt := wid; f_rr := wid |}.
Proof.
  assert (E : uncorr_rayleigh {| t_nb := 2; r_nb := 2; m_std := None; m_fading := {| f_mean := plain (zeros 2 2) false; f_rt := identity 2; f_rr := identity 2 |}; m_complex := false;
                                 m_noises := None; m_gains := None; m_unnoisy := None |} true = (wch, Ok tt)).
  { unfold wch. rewrite rayleigh_ok by (cbn; lia). reflexivity. }
  rewrite rayleigh_ok in E by (cbn; lia). injection E as <-. repeat split.
Qed.
Lemma w_matrix : forall t a, drawn_matrix wdr (fun m => (m, true)) wch t a = wid.
Proof.
  intros t a. destruct wch_eq as (E1 & E2 & _ & E4). unfold drawn_matrix. rewrite E1, E2, E4. cbn [f_rr f_rt f_mean fst plain m_rows zeros repeat wid seq map nth wdr u_g1 u_g2 Nat.eqb Csum fold_right].
  assert (S2 : (sqrt (1 / 2) * sqrt 2 = 1)%R) by (rewrite <- sqrt_mult by lra; replace (1 / 2 * 2)%R with 1%R by lra; apply sqrt_1).
  unfold wid. repeat f_equal; apply C_ext; unfold Cscale, Cadd, Cmul, C1, C0; cbn [re im]; rewrite ?Rmult_0_r, ?S2; ring.
Qed.
Example C76_witness : exists md, modem_init [C1; mkC (-1) 0] true = Ok md /\ NoDup [C1; mkC (-1) 0] /\ (1 <= t_nb wch <= r_nb wch)%nat /\ m_complex wch = true /\ m_nan (f_mean (m_fading wch)) = false /\ sorting rsort /\
  is_qr wid 2 wid wid /\ let s := sqrt (2 * INR (t_nb wch) * energy md / Rpower 10 (0 / 10)) in s = 2%R /\
  forall t a, drawn_matrix wdr (fun m => (m, true)) wch t a = wid /\ noise_energy wdr wch s t a = (1 / 2)%R /\ clear_successive (noise_energy wdr wch s t a) (drawn_matrix wdr (fun m => (m, true)) wch t a) [C1; mkC (-1) 0] 2.
Proof.
  destruct wch_eq as (E1 & E2 & E3 & E4). destruct (modem_init [C1; mkC (-1) 0] true) as [md|e] eqn:EM; [|discriminate]. exists md. split; [reflexivity|].
  split. { constructor; [|constructor; [intros []|constructor]]. intros [H|[]]. injection H as H. lra. }
  split; [rewrite E1, E2; lia|]. split; [exact E3|]. split; [rewrite E4; reflexivity|]. split; [exact rsort_sorting|].
  split. { repeat split; try (repeat constructor); intros; repeat (match goal with i : nat |- _ => destruct i as [|i]; try (cbn in *; lia) end); cbn [nth wid seq map length Csum fold_right Nat.eqb]; apply C_ext; unfold Cadd, Cmul, Cconj, C1, C0; cbn [re im]; ring. }
  assert (HE : energy md = 1%R). { rewrite (C44_energy_proof _ _ _ EM). cbn [map Rsum fold_right length]. unfold Cnorm2, C1. cbn [re im INR]. field. }
  set (s := sqrt _). assert (Es : s = 2%R). { unfold s. rewrite E1, HE. replace (0 / 10)%R with 0%R by field. rewrite Rpower_O by lra. cbn [INR]. replace (2 * (1 + 1) * 1 / 1)%R with (2 * 2)%R by field. apply sqrt_square. lra. }
  cbv zeta. split; [exact Es|]. intros t a. split; [apply w_matrix|]. assert (EN : noise_energy wdr wch s t a = (1 / 2)%R). { unfold noise_energy, drawn_noise. rewrite E2, Es. cbn [seq map wdr u_n1 u_n2 Rsum fold_right]. unfold Cnorm2, Cscale. cbn [re im]. field. }
  split; [exact EN|]. rewrite EN, w_matrix. intros v j p p' Lv Hj Hp Hp' Hd Hv Hz.
  assert (HP : (4 <= Cnorm2 (p - p')%C)%R). { destruct Hp as [<-|[<-|[]]], Hp' as [<-|[<-|[]]]; try congruence; unfold Cnorm2, Csub, C1; cbn [re im]; lra. }
  destruct v as [|v0 [|v1 [|? ?]]]; try discriminate Lv. unfold energy_of, apply_row, wid. cbn [length seq map nth Rsum Csum fold_right].
  replace (C1 * v0 + (C0 * v1 + C0))%C with v0 by ring. replace (C0 * v0 + (C1 * v1 + C0))%C with v1 by ring. pose proof (Cnorm2_nonneg v0). pose proof (Cnorm2_nonneg v1).
  destruct j as [|[|j]]; [| |lia]; cbn [nth] in Hv; subst; lra.
Qed.
(* SISO: BPSK at 0 dB, noise draws of magnitude 1 *)
Example C76_siso_witness : (sqrt (2 * 1 / Rpower 10 (0 / 10)) * Cabs (mkC 1 0) < 2)%R /\ (2 <= Cabs (C1 - mkC (-1) 0)%C)%R /\ exists channel, siso_init None (C1, true, 0%R) = Ok channel.
Proof.
  assert (A : Cabs (mkC 1 0) = 1%R) by (unfold Cabs, Cnorm2; cbn [re im]; replace (1 * 1 + 0 * 0)%R with 1%R by ring; apply sqrt_1). split; [|split].
  - rewrite A. replace (0 / 10)%R with 0%R by field. rewrite Rpower_O by lra. replace (2 * 1 / 1)%R with 2%R by field. rewrite Rmult_1_r. apply Rlt_le_trans with (sqrt 4); [apply sqrt_lt_1; lra|]. replace 4%R with (2 * 2)%R by lra. rewrite sqrt_square; lra.
  - unfold Cabs, Cnorm2, Csub, C1. cbn [re im]. right. replace ((1 - -1) * (1 - -1) + (0 - 0) * (0 - 0))%R with (2 * 2)%R by ring. symmetry. apply sqrt_square. lra.
  - unfold siso_init, siso_set. cbn. destruct (Req_EM_T _ 1) as [_|F]; [eexists; reflexivity|]. exfalso. apply F. change (Cabs C1) with (Cabs (mkC 1 0)). rewrite A. ring.
Qed.

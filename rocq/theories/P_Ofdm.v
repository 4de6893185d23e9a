(* OFDM: properties C63, C74. *)
From Verif Require Import Base Cplx OfdmModel OfdmSpec OfdmTop.
Open Scope Z_scope.

(* ---------------------------------------------------------------- C63 *)

Theorem C63_ofdm :
(* NumPy >= 1.12: ofdm_tx and ofdm_rx cannot process a single OFDM symbol, TypeError as soon as there is one *)
  forall (x : list (list C)) (y : list C) (nfft nsc cp : nat),
    ofdm_tx Strict x nfft nsc cp = match x with [] => Ok [] | _ => Err TypeError end /\
    ((1 <= nfft)%nat -> ofdm_rx Strict y nfft nsc cp = if (length y <? nfft + cp)%nat then Ok [] else Err TypeError) /\
    ((1 <= cp)%nat -> ofdm_rx Strict y 0 nsc cp = if (length y <? cp)%nat then Ok [] else Err ValueError) /\
    ofdm_rx Strict y 0 nsc 0 = Err ZeroDivisionError.
Proof. exact C63_ofdm_proof. Qed.
Print Assumptions C63_ofdm.

(* ---------------------------------------------------------------- C74 *)

Theorem C74_waveform :
(* NumPy < 1.12.  The transmitted signal: every column gives nfft + cp samples of the sum of its carriers, from time -cp *)
  forall (x : list (list C)) (nfft h cp : nat), (1 <= h)%nat -> (2 * h < nfft)%nat -> (1 <= cp <= nfft)%nat -> Forall (fun c => length c = (2 * h)%nat) x ->
    exists s : list C, ofdm_tx Truncating x nfft (2 * h) cp = Ok s /\ length s = (length x * (nfft + cp))%nat /\
      forall i t : nat, (i < length x)%nat -> (t < nfft + cp)%nat -> nth (i * (nfft + cp) + t) s C0 = waveform nfft h (nth i x []) (Z.of_nat t - Z.of_nat cp).
Proof. exact C74_waveform_proof. Qed.
Print Assumptions C74_waveform.
Definition exX : list (list C) := [[mkC 1 0; mkC 0 1; mkC (-1) 0; mkC 0 (-1)]; [mkC 1 1; mkC 1 1; mkC 0 0; mkC 2 0]].
Example C74_witness : (1 <= 2)%nat /\ (2 * 2 < 8)%nat /\ (1 <= 3 <= 8)%nat /\ Forall (fun c => length c = (2 * 2)%nat) exX /\ (length [mkC 1 0; C0; C0; mkC 0 1] <= 3 + 1)%nat /\
  map (carrier 2) (seq 0 4) = [-2; -1; 1; 2].
Proof. repeat split; try lia; [repeat constructor|cbn; lia]. Qed.

Theorem C74_receiver :
(* the receiver drops the prefix of every complete block and correlates the rest with every carrier; hence it is linear in
     the received signal *)
  forall (y : list C) (nfft h cp : nat), (1 <= h)%nat -> (2 * h < nfft)%nat ->
    exists x : list (list C), ofdm_rx Truncating y nfft (2 * h) cp = Ok x /\ length x = (length y / (nfft + cp))%nat /\
      forall i j : nat, (i < length x)%nat -> (j < 2 * h)%nat -> length (nth i x []) = (2 * h)%nat /\
        nth j (nth i x []) C0 = Csum (map (fun t => nth (i * (nfft + cp) + cp + t) y C0 * cis (- (2 * PI * IZR (carrier h j) * INR t / INR nfft)))%C (seq 0 nfft)).
Proof. exact C74_receiver_proof. Qed.
Print Assumptions C74_receiver.

Theorem C74_multipath :
(* a channel with up to cp + 1 taps multiplies every row by the frequency response at its carrier *)
  forall (x : list (list C)) (g s : list C) (nfft h cp : nat), (1 <= h)%nat -> (2 * h < nfft)%nat -> (1 <= cp <= nfft)%nat -> Forall (fun c => length c = (2 * h)%nat) x -> (length g <= cp + 1)%nat ->
    ofdm_tx Truncating x nfft (2 * h) cp = Ok s -> ofdm_rx Truncating (multipath g s) nfft (2 * h) cp = Ok (map (attenuated nfft h g) x).
Proof. exact C74_multipath_proof. Qed.
Print Assumptions C74_multipath.

Theorem C74_roundtrip :
(* the receiver inverts the transmitter *)
  forall (x : list (list C)) (nfft h cp : nat), (1 <= h)%nat -> (2 * h < nfft)%nat -> (1 <= cp <= nfft)%nat -> Forall (fun c => length c = (2 * h)%nat) x ->
    exists s : list C, ofdm_tx Truncating x nfft (2 * h) cp = Ok s /\ ofdm_rx Truncating s nfft (2 * h) cp = Ok x.
Proof. exact C74_roundtrip_proof. Qed.
Print Assumptions C74_roundtrip.

Theorem C74_energy :
(* the energy of every symbol (without prefix) is the energy of its column divided by nfft *)
  forall (x : list (list C)) (s : list C) (nfft h cp i : nat), (1 <= h)%nat -> (2 * h < nfft)%nat -> (1 <= cp <= nfft)%nat -> Forall (fun c => length c = (2 * h)%nat) x -> (i < length x)%nat ->
    ofdm_tx Truncating x nfft (2 * h) cp = Ok s ->
    Rsum (map (fun t => Cnorm2 (nth (i * (nfft + cp) + cp + t) s C0)) (seq 0 nfft)) = (/ INR nfft * Rsum (map Cnorm2 (nth i x [])))%R.
Proof. exact C74_energy_proof. Qed.
Print Assumptions C74_energy.

Theorem C74_zero_prefix_refuted :
(* cp_length = 0 is not a signal without prefix: time[-0:] is the whole symbol, everything is sent, and received, twice *)
  (forall (x : list (list C)) (nfft h : nat), (1 <= h)%nat -> (2 * h < nfft)%nat -> Forall (fun c => length c = (2 * h)%nat) x ->
    exists s : list C, ofdm_tx Truncating x nfft (2 * h) 0 = Ok s /\ length s = (2 * nfft * length x)%nat /\ ofdm_rx Truncating s nfft (2 * h) 0 = Ok (flat_map (fun c => [c; c]) x)) /\
  ~ (forall (x : list (list C)) (s : list C) (nfft h : nat), (1 <= h)%nat -> (2 * h < nfft)%nat -> Forall (fun c => length c = (2 * h)%nat) x ->
       ofdm_tx Truncating x nfft (2 * h) 0 = Ok s -> ofdm_rx Truncating s nfft (2 * h) 0 = Ok x).
Proof. exact C74_zero_prefix_refuted_proof. Qed.
Print Assumptions C74_zero_prefix_refuted.

Theorem C74_full_band_refuted :
(* nsc = nfft is accepted but loses a row: the two bands share a bin *)
  (forall a b : C, exists s : list C, ofdm_tx Truncating [[a; b]] 2 2 1 = Ok s /\ ofdm_rx Truncating s 2 2 1 = Ok [[a; a]]) /\
  ~ (forall (x : list (list C)) (s : list C) (nfft h cp : nat), (1 <= h)%nat -> (2 * h <= nfft)%nat -> (1 <= cp <= nfft)%nat -> Forall (fun c => length c = (2 * h)%nat) x ->
       ofdm_tx Truncating x nfft (2 * h) cp = Ok s -> ofdm_rx Truncating s nfft (2 * h) cp = Ok x).
Proof. exact C74_full_band_refuted_proof. Qed.
Print Assumptions C74_full_band_refuted.

Theorem C74_odd :
(* an odd number of carriers is rejected *)
  forall (x : list (list C)) (nfft h cp : nat), x <> [] -> Forall (fun c => length c = (2 * h + 1)%nat) x -> ofdm_tx Truncating x nfft (2 * h + 1) cp = Err ValueError.
Proof. exact C74_odd_proof. Qed.
Print Assumptions C74_odd.

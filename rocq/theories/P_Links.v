(* Properties C55 - C58: links.py.  The link model's functions (modulate, propagate, receive, decoder, random choice) are
   arbitrary; [sane] and [calls_end] say what is assumed about them.  See LinksSpec.v. *)
From Coq Require Import Reals Lra.
From Verif Require Import Base LinksModel LinksSpec LinksTop.

(* ---------------------------------------------------------------- C55 *)

Theorem C55_chunk_rounding :
forall b p q send_chunk : Z, 0 < b -> 0 < p -> 0 < q ->
    let c := round_chunk b p q send_chunk in
    0 < c /\ fits b p q c /\
    (forall c', 0 < c' <= send_chunk -> fits b p q c' -> c' <= c <= send_chunk) /\
    (forall c', 0 < c' -> fits b p q c' -> c <= Z.max c' send_chunk).
Proof. exact C55_chunk_rounding_proof. Qed.
Print Assumptions C55_chunk_rounding.
(* 16-QAM, one antenna, rate 3/4: multiples of 3 bits; QPSK on two antennas, rate 5/6: multiples of 10 bits *)
Example C55_witness : round_chunk 4 3 4 100 = 99 /\ round_chunk 4 5 6 4 = 10 /\ fits 4 5 6 10 /\ ~ fits 4 5 6 4.
Proof. split; [reflexivity|]. split; [reflexivity|]. split; [exists 3; reflexivity|]. intros [v E]. lia. Qed.

Theorem C55_function :
(* The function link_performance is the method, for every link model: a chunk size that is given and not 0 is passed on, and without
     one (or with 0) the chunk is err_min, as in the method called without a chunk size. *)
  forall (W Snr Sy Y G V : Type) (fuel : nat) (m : link W Snr Sy Y G V) (w : W) (snrs : list Snr) (send_max err_min p q : Z),
    (forall c : Z, c <> 0 -> link_performance_function fuel m w snrs send_max err_min (Some c) p q = link_performance fuel m w snrs send_max err_min (Some c) p q) /\
    link_performance_function fuel m w snrs send_max err_min None p q = link_performance fuel m w snrs send_max err_min None p q /\
    link_performance_function fuel m w snrs send_max err_min (Some 0) p q = link_performance fuel m w snrs send_max err_min None p q.
Proof. exact C55_function_proof. Qed.
Print Assumptions C55_function.
(* a method called with 0 uses the smallest chunk instead: 4 bits against 100 *)
Example C55_function_witness : round_chunk 4 1 1 0 = 4 /\ round_chunk 4 1 1 100 = 100.
Proof. split; reflexivity. Qed.

Theorem C55_float_rate :
(* A code rate given as a float: if it is within 1/20000 of a fraction p/q in lowest terms with q at most 100 (as the float nearest to
     p/q is), both methods do exactly what they do with Fraction(p, q).  In general the rate used is a fraction in lowest terms with
     denominator at most 100, and no other such fraction is nearer to the float. *)
  forall (W Snr Sy Y G V : Type) (m : Z -> Z -> link W Snr Sy Y G V) (num den : Z), 0 <= num -> 0 < den -> Z.gcd num den = 1 ->
    (forall p q : Z, 0 < p -> 1 <= q <= 100 -> Z.gcd p q = 1 -> (Rabs (IZR num / IZR den - IZR p / IZR q) < 1 / 20000)%R ->
       (forall fuel w snrs send_max err_min chunk, link_performance_rate fuel m w snrs send_max err_min chunk (RFloat num den) = link_performance fuel (m p q) w snrs send_max err_min chunk p q) /\
       (forall w snrs tx_max err_min chunk ncps stop, full_metrics_rate m w snrs tx_max err_min chunk (RFloat num den) ncps stop = link_performance_full_metrics (m p q) w snrs tx_max err_min chunk p q ncps stop)) /\
    exists r s : Z, 1 <= s <= 100 /\ Z.gcd r s = 1 /\
      (forall u v : Z, 1 <= v <= 100 -> (Rabs (IZR num / IZR den - IZR r / IZR s) <= Rabs (IZR num / IZR den - IZR u / IZR v))%R) /\
      forall fuel w snrs send_max err_min chunk, link_performance_rate fuel m w snrs send_max err_min chunk (RFloat num den) = link_performance_rate fuel m w snrs send_max err_min chunk (RFraction r s).
Proof. exact C55_float_rate_proof. Qed.
Print Assumptions C55_float_rate.
(* the doubles nearest to 2/3 and 5/6 *)
Example C55_float_rate_witness : Z.gcd 6004799503160661 9007199254740992 = 1 /\ rate_used (RFloat 6004799503160661 9007199254740992) = (2, 3) /\ rate_used (RFloat 7505999378950827 9007199254740992) = (5, 6).
Proof. split; [|split]; vm_compute; reflexivity. Qed.

(* ---------------------------------------------------------------- C56 *)

Theorem C56_ber :
forall (W Snr Sy Y G V : Type) (m : link W Snr Sy Y G V) (w : W) (snrs : list Snr) (send_max err_min : Z) (send_chunk : option Z) (p q : Z) fuel bers,
    sane m -> (0 < num_bits_symbol m)%nat -> (0 < nb_tx m)%nat -> 0 < p -> 0 < q ->
    link_performance fuel m w snrs send_max err_min send_chunk p q = Ok bers ->
    let n := round_chunk (Z.of_nat (num_bits_symbol m) * Z.of_nat (nb_tx m)) p q (match send_chunk with Some c => c | None => err_min end) in
    exists runs, simulated m (Z.to_nat n) w snrs runs /\ (length runs <= length snrs)%nat /\ (snrs <> [] -> runs <> []) /\
      bers = map (fun tr => Some (total_errors tr, n * Z.of_nat (length tr))) runs ++ repeat None (length snrs - length runs) /\
      (* every simulated SNR: sends at least once, until send_max bits or err_min errors, and not longer *)
      (forall tr, In tr runs -> tr <> [] /\ (send_max <= n * Z.of_nat (length tr) \/ err_min <= total_errors tr) /\
         forall k, (k < length tr)%nat -> n * Z.of_nat k < send_max /\ total_errors (firstn k tr) < err_min) /\
      (* the remaining SNRs are skipped exactly after one with fewer than err_min errors *)
      (forall i tr, nth_error runs i = Some tr -> (S i < length snrs)%nat -> (length runs = S i <-> total_errors tr < err_min)).
Proof. exact C56_ber_proof. Qed.
Print Assumptions C56_ber.

Theorem C56_ratio :
forall (W Snr Sy Y G V : Type) (m : link W Snr Sy Y G V) (w : W) (snrs : list Snr) (send_max err_min : Z) (send_chunk : option Z) (p q : Z) fuel bers,
    sane m -> (0 < num_bits_symbol m)%nat -> (0 < nb_tx m)%nat -> 0 < p -> 0 < q ->
    link_performance fuel m w snrs send_max err_min send_chunk p q = Ok bers ->
    let n := round_chunk (Z.of_nat (num_bits_symbol m) * Z.of_nat (nb_tx m)) p q (match send_chunk with Some c => c | None => err_min end) in
    length bers = length snrs /\
    forall i errors sent, nth_error bers i = Some (Some (errors, sent)) ->
      (0 <= IZR errors / IZR sent <= 1)%R /\ 0 < sent < send_max + n /\ errors < err_min + n.
Proof. exact C56_ratio_proof. Qed.
Print Assumptions C56_ratio.

Theorem C56_terminates :
forall (W Snr Sy Y G V : Type) (m : link W Snr Sy Y G V) (w : W) (snrs : list Snr) (send_max err_min : Z) (send_chunk : option Z) (p q : Z),
    calls_end m -> (0 < num_bits_symbol m)%nat -> (0 < nb_tx m)%nat -> 0 < p -> 0 < q ->
    exists result, result <> Err OutOfFuel /\
      forall fuel, (Z.to_nat send_max < fuel)%nat -> link_performance fuel m w snrs send_max err_min send_chunk p q = result.
Proof. exact C56_terminates_proof. Qed.
Print Assumptions C56_terminates.

Theorem C56_no_transmission :
forall (W Snr Sy Y G V : Type) (m : link W Snr Sy Y G V) (w w1 : W) (s : Snr) (snrs : list Snr) (send_max err_min : Z) (send_chunk : option Z) (p q : Z) fuel,
    l_set_snr m w s = Ok w1 -> send_max <= 0 \/ err_min <= 0 ->
    link_performance (S fuel) m w (s :: snrs) send_max err_min send_chunk p q = Err ZeroDivisionError.
Proof. exact C56_no_transmission_proof. Qed.
Print Assumptions C56_no_transmission.
(* the hypotheses hold for a link over a noisy channel: the message (from a counter) is sent with BPSK and every third bit is flipped *)
Definition toy_choice (w : nat) (n : nat) : list Z * nat := (map (fun i => Z.b2z (Nat.odd ((i + w) * (i + w) / 3))) (seq 0 n), S w).
Definition toy_flip (l : list Z) : list Z := map (fun i => if (i mod 3 =? 2)%nat then 1 - nth i l 0 else nth i l 0) (seq 0 (length l)).
Definition toy : link nat nat Z Z Z Z :=
  {| num_bits_symbol := 1; nb_tx := 1; is_mimo := false; l_set_snr := fun w _ => Ok w; l_choice := toy_choice; l_modulate := fun w l => Ok (l, w);
     l_propagate := fun w l => Ok (toy_flip l, [], w); l_receive := fun _ l _ => Ok l; l_receive1 := fun _ _ _ => Ok [];
     l_decoder := fun w _ _ l _ => Ok (l, w); l_received_len := Z.to_nat; l_empty := fun _ => 0 |}.
Example C56_witness : sane toy /\ calls_end toy /\
  link_performance 50 toy 0%nat [1; 2]%nat 40 5 (Some 6) 1 1 = Ok [Some (6, 18); Some (6, 18)] /\
  link_performance 50 toy 0%nat [1; 2]%nat 10 5 (Some 6) 1 1 = Ok [Some (4, 12); None].
Proof.
  assert (Hb : forall w n, length (fst (toy_choice w n)) = n /\ bits (fst (toy_choice w n))).
  { intros w n. unfold toy_choice. cbn [fst]. split; [rewrite map_length, seq_length; reflexivity|]. apply Forall_map, Forall_forall. intros i _.
    destruct (Nat.odd _); [right|left]; reflexivity. }
  split.
  - split; [exact Hb|]. intros w n msg dec w' E. destruct (Hb w n) as [H1 H2]. unfold transmit, toy, l_choice, l_modulate, l_propagate, is_mimo, l_receive, l_decoder in E.
    destruct (toy_choice w n) as [msg0 w0]. cbn [bind fst] in *. injection E as <- <- <-. unfold toy_flip. rewrite map_length, seq_length. split; [|lia].
    apply Forall_map, Forall_forall. intros i Hi. apply in_seq in Hi. assert (Hx : is_bit (nth i msg0 0)).
    { unfold bits in H2. rewrite Forall_forall in H2. apply H2, nth_In. lia. }
    destruct (i mod 3 =? 2)%nat; [|exact Hx]. destruct Hx as [-> | ->]; [right|left]; reflexivity.
  - split; [split; [intros w n; unfold transmit, toy, l_choice, l_modulate, l_propagate, is_mimo, l_receive, l_decoder; destruct (toy_choice w n); discriminate|intros; discriminate]|].
    split; vm_compute; reflexivity.
Qed.

Theorem C56_transmission :
(* one transmission: on a SISO channel the decoder gets what the receiver returns; on a MIMO channel the outputs of the receiver for
     the successive received vectors, in order, followed by uninitialised values if they do not fill ceil(len(msg) / rate) *)
  forall (W Snr Sy Y G V : Type) (m : link W Snr Sy Y G V) (w w1 w2 w3 : W) (n : nat) (msg : list Z) (symbs : list Sy) (out : list Y) (gains : list G),
    l_choice m w n = (msg, w1) -> l_modulate m w1 msg = Ok (symbs, w2) -> l_propagate m w2 symbs = Ok (out, gains, w3) ->
    let size := (nb_tx m * num_bits_symbol m)%nat in
    let decoded_from received := (d <- l_decoder m w3 out gains received size ;; Ok (msg, fst d, snd d)) in
    (is_mimo m = false -> forall received, l_receive m w3 out gains = Ok received -> transmit m w n = decoded_from received) /\
    (is_mimo m = true -> length gains = length out -> (size * length out <= l_received_len m (Z.of_nat (length msg)))%nat ->
     forall rs : nat -> list V, (forall i y h, nth_error out i = Some y -> nth_error gains i = Some h -> l_receive1 m w3 y h = Ok (rs i) /\ length (rs i) = size) ->
       transmit m w n = decoded_from (concat (map rs (seq 0 (length out))) ++ map (l_empty m) (seq (size * length out) (l_received_len m (Z.of_nat (length msg)) - size * length out)))).
Proof. exact C56_transmission_proof. Qed.
Print Assumptions C56_transmission.
(* two received vectors of two values each, a buffer of five *)
Example C56_transmission_witness : transmit {| num_bits_symbol := 1; nb_tx := 2; is_mimo := true; l_set_snr := fun w (_ : R) => Ok w; l_choice := fun w n => (repeat 1 n, w); l_modulate := fun w b => Ok (b, w);
    l_propagate := fun w s => Ok ([[1; 2]; [3; 4]], [7; 8], w); l_receive := fun _ _ _ => Ok []; l_receive1 := fun _ y h => Ok (map (Z.mul h) y); l_decoder := fun w _ _ r _ => Ok (r, w);
    l_received_len := fun _ => 5%nat; l_empty := fun i => 100 + Z.of_nat i |} tt 3 = Ok ([1; 1; 1], [7; 14; 24; 32; 104], tt).
Proof. reflexivity. Qed.

(* ---------------------------------------------------------------- C57 *)

Theorem C57_metrics :
forall (W Snr Sy Y G V : Type) (m : link W Snr Sy Y G V) (w : W) (snrs : list Snr) (tx_max : nat) (err_min : Z) (send_chunk : option Z) (p q : Z) (ncps : nat) (stop : bool) rows,
    sane m -> (0 < num_bits_symbol m)%nat -> (0 < nb_tx m)%nat -> 0 < p -> 0 < q ->
    link_performance_full_metrics m w snrs tx_max err_min send_chunk p q ncps stop = Ok rows ->
    let n := round_chunk (Z.of_nat (num_bits_symbol m) * Z.of_nat (nb_tx m)) p q (match send_chunk with Some c => c | None => err_min end) in
    let errors := fun tr : list (list Z * list Z) => map (fun t => bit_errors (fst t) (snd t)) tr in
    let row := fun tr : list (list Z * list Z) =>
      {| BER := Some (total_errors tr, Z.of_nat (length tr) * n);
         BE := errors tr ++ repeat 0 (tx_max - length tr);
         CE := map (fun e => if 0 <? e then 1 else 0) (errors tr) ++ repeat 0 (tx_max - length tr);
         NC := repeat (Z.of_nat ncps) (length tr) ++ repeat 0 (tx_max - length tr) |} in
    let zero := {| BER := None; BE := repeat 0 tx_max; CE := repeat 0 tx_max; NC := repeat 0 tx_max |} in
    exists runs, simulated m (Z.to_nat n * ncps) w snrs runs /\ (length runs <= length snrs)%nat /\ (snrs <> [] -> runs <> []) /\
      rows = map row runs ++ repeat zero (length snrs - length runs) /\
      (* every simulated SNR: tx_max transmissions, fewer only after more than err_min errors *)
      (forall tr, In tr runs -> (length tr <= tx_max)%nat /\ ((length tr < tx_max)%nat -> stop = true /\ err_min < total_errors tr) /\
         (stop = true -> forall k, (k < length tr)%nat -> total_errors (firstn k tr) <= err_min)) /\
      (forall i tr, nth_error runs i = Some tr -> (S i < length snrs)%nat -> (length runs = S i <-> total_errors tr < err_min)).
Proof. exact C57_metrics_proof. Qed.
Print Assumptions C57_metrics.

Theorem C57_ratio :
forall (W Snr Sy Y G V : Type) (m : link W Snr Sy Y G V) (w : W) (snrs : list Snr) (tx_max : nat) (err_min : Z) (send_chunk : option Z) (p q : Z) (stop : bool) rows,
    sane m -> (0 < num_bits_symbol m)%nat -> (0 < nb_tx m)%nat -> 0 < p -> 0 < q -> (0 < tx_max)%nat -> 0 <= err_min ->
    link_performance_full_metrics m w snrs tx_max err_min send_chunk p q 1 stop = Ok rows ->
    forall i r errors sent, nth_error rows i = Some r -> BER r = Some (errors, sent) -> 0 <= errors <= sent /\ 0 < sent /\ errors = Zsum (BE r).
Proof. exact C57_ratio_proof. Qed.
Print Assumptions C57_ratio.
Example C57_witness : link_performance_full_metrics toy 0%nat [1; 2]%nat 4 5 (Some 6) 1 1 1 true =
  Ok [{| BER := Some (6, 18); BE := [2; 2; 2; 0]; CE := [1; 1; 1; 0]; NC := [1; 1; 1; 0] |}; {| BER := Some (6, 18); BE := [2; 2; 2; 0]; CE := [1; 1; 1; 0]; NC := [1; 1; 1; 0] |}].
Proof. vm_compute. reflexivity. Qed.

Theorem C57_bit_error_ratio_refuted :
(* with two chunks per send, "BER" is 2 when every bit is wrong, and CE is 1 although two chunks are wrong *)
  exists (m : link nat nat Z Z Z Z) (r : metrics), sane m /\ num_bits_symbol m = 1%nat /\ nb_tx m = 1%nat /\
    link_performance_full_metrics m 0%nat [0%nat] 1 0 (Some 3) 1 1 2 false = Ok [r] /\
    BER r = Some (6, 3) /\ BE r = [6] /\ CE r = [1] /\ NC r = [2].
Proof. exact C57_bit_error_ratio_refuted_proof. Qed.
Print Assumptions C57_bit_error_ratio_refuted.

(* ---------------------------------------------------------------- C58 *)

Theorem C58_idd :
forall (Y H B : Type) (detector : Y -> H -> list R -> res (list R * list R)) (decoder : list R -> res (list R * list R)) (decision : list R -> res (list B))
         (n_it : nat) (ys : list Y) (hs : list H) (a_priori : list R) (bits_per_send : nat) result caller,
    (* in-place changes keep the shape of an array, and the detector returns bits_per_send values *)
    (forall y h v d v', detector y h v = Ok (d, v') -> length d = bits_per_send /\ length v' = length v) ->
    (forall x d x', decoder x = Ok (d, x') -> length x' = length x) ->
    length a_priori = (length hs * bits_per_send)%nat ->
    idd_decode Rplus Rminus detector decoder decision n_it ys hs a_priori bits_per_send = Ok (result, caller) ->
    caller = a_priori /\ (1 <= n_it)%nat /\
    exists x z : nat -> list R, x 0%nat = a_priori /\
      (forall k, (k < n_it)%nat -> idd_round Rminus detector decoder ys hs bits_per_send (x k) (z k) (x (k + 1)%nat)) /\
      decision (z (n_it - 1)%nat) = Ok result.
Proof. exact C58_idd_proof. Qed.
Print Assumptions C58_idd.
(* a decoder that doubles in place and a detector that clears its a-priori argument *)
Example C58_witness : idd_decode Rplus Rminus (fun (y : R) (_ : unit) v => Ok ([y + hd 0 v]%R, map (fun _ => 0%R) v)) (fun x => Ok (map (Rmult 2) x, x))
    (fun x => Ok x) 2 [1; 2]%R [tt; tt] [3; 4]%R 1 = Ok ([1 + (2 * (1 + (2 * 3 - 3) - 0) - (1 + (2 * 3 - 3) - 0)) - 0 + 0; 2 + (2 * (2 + (2 * 4 - 4) - 0) - (2 + (2 * 4 - 4) - 0)) - 0 + 0], [3; 4])%R.
Proof. reflexivity. Qed.

Theorem C58_no_iteration :
forall (Y H B : Type) (detector : Y -> H -> list R -> res (list R * list R)) (decoder : list R -> res (list R * list R)) (decision : list R -> res (list B))
         (ys : list Y) (hs : list H) (a_priori : list R) (bits_per_send : nat),
    idd_decode Rplus Rminus detector decoder decision 0 ys hs a_priori bits_per_send = Err UnboundLocalError.
Proof. exact C58_no_iteration_proof. Qed.
Print Assumptions C58_no_iteration.


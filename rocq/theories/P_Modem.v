(* Modems: properties C41-C44, C68. *)
From Coq Require Import Permutation.
From Verif Require Import Base UtilModel Cplx ModemModel ModemSpec ModemTop.
Open Scope Z_scope.

(* ---------------------------------------------------------------- C41 *)

Theorem C41_gray_labels :
(* the point given at position i gets label [label i]; labels of consecutive points, and of the last and the first, differ
     in exactly one bit *)
  forall (c : list C) (b : nat), length c = (2 ^ b)%nat -> (1 <= b)%nat ->
    exists (md : modem) (label : nat -> Z), modem_init c true = Ok md /\ num_bits md = b /\ size_m md = (2 ^ b)%nat /\ Permutation (points md) c /\
      (forall i, (i < 2 ^ b)%nat -> 0 <= label i < 2 ^ Z.of_nat b /\ nth (Z.to_nat (label i)) (points md) C0 = nth i c C0) /\
      (forall i j, (i < 2 ^ b)%nat -> (j < 2 ^ b)%nat -> label i = label j -> i = j) /\
      (forall i, (i + 1 < 2 ^ b)%nat -> one_bit_apart (label i) (label (i + 1)%nat)) /\ one_bit_apart (label (2 ^ b - 1)%nat) (label 0%nat).
Proof. exact C41_gray_labels_proof. Qed.
Print Assumptions C41_gray_labels.
Example C41_witness : argsort (gray_sequence 2) = [0; 1; 3; 2]%nat /\ one_bit_apart 3 2.
Proof. split; [reflexivity|]. exists 0. split; [lia|]. intros p Hp. destruct p as [|p|p]; [split; [reflexivity|discriminate]| |lia]. split; [|discriminate]. intros H. exfalso. apply H. destruct p as [[]|[]|]; reflexivity. Qed.

Theorem C41_order_kept :
(* reorder_as_gray=False: any power-of-two length, labels are positions *)
  forall (c : list C) (b : nat), length c = (2 ^ b)%nat ->
    exists md : modem, modem_init c false = Ok md /\ num_bits md = b /\ size_m md = (2 ^ b)%nat /\ points md = c.
Proof. exact C41_order_kept_proof. Qed.
Print Assumptions C41_order_kept.

Theorem C41_bad_length :
forall (c : list C) (r : bool), c <> [] -> (forall b, length c <> (2 ^ b)%nat) -> modem_init c r = Err ValueError /\ set_constellation c = Err ValueError.
Proof. exact C41_bad_length_proof. Qed.
Print Assumptions C41_bad_length.
Example C41_bad_witness : forall b, length [C0; C1; Ci] <> (2 ^ b)%nat.
Proof. intros [|[|b]]; cbn; lia. Qed.

Theorem C41_psk :
forall b : nat, (1 <= b)%nat -> let m := (2 ^ b)%nat in
    exists (md : modem) (label : nat -> Z), psk_modem m = Ok md /\ num_bits md = b /\ length (points md) = m /\ NoDup (points md) /\
      (forall k, (k < m)%nat -> 0 <= label k < Z.of_nat m /\ nth (Z.to_nat (label k)) (points md) C0 = cis (2 * PI * INR k / INR m)) /\
      (forall k, (k < m)%nat -> one_bit_apart (label k) (label ((k + 1) mod m)%nat)).
Proof. exact C41_psk_proof. Qed.
Print Assumptions C41_psk.

Theorem C41_qam :
(* [label a c] is the label of the point with real part 2a - n + 1 and imaginary part 2c - n + 1, n = 2 ** p *)
  forall p : nat, (1 <= p)%nat -> let n := (2 ^ p)%nat in
    exists (md : modem) (label : nat -> nat -> Z), qam_modem (4 ^ p) = Ok md /\ num_bits md = (2 * p)%nat /\ length (points md) = (4 ^ p)%nat /\ NoDup (points md) /\
      (forall a c, (a < n)%nat -> (c < n)%nat -> 0 <= label a c < Z.of_nat (4 ^ p) /\
         nth (Z.to_nat (label a c)) (points md) C0 = mkC (2 * INR a - INR n + 1) (2 * INR c - INR n + 1)) /\
      (forall a c, (a + 1 < n)%nat -> (c < n)%nat -> one_bit_apart (label a c) (label (a + 1)%nat c)) /\
      (forall a c, (a < n)%nat -> (c + 1 < n)%nat -> one_bit_apart (label a c) (label a (c + 1)%nat)).
Proof. exact C41_qam_proof. Qed.
Print Assumptions C41_qam.

Theorem C41_sizes :
(* exactly the sizes 2, 4, 8, ... (PSK) and 4, 16, 64, ... (QAM) are accepted *)
  forall m : nat,
    (2 <= m -> (forall b, m <> 2 ^ b) -> psk_modem m = Err ValueError)%nat /\ psk_modem 1 = Err ValueError /\ psk_modem 0 = Err OverflowError /\
    (2 <= m -> (forall p, m <> 4 ^ p) -> qam_modem m = Err ValueError)%nat /\ qam_modem 1 = Err OverflowError /\ qam_modem 0 = Err OverflowError.
Proof. exact C41_sizes_proof. Qed.
Print Assumptions C41_sizes.
Example C41_sizes_witness : forall p, 8%nat <> (4 ^ p)%nat.
Proof. intros [|[|p]]; cbn [Nat.pow]; try lia. Qed.

(* ---------------------------------------------------------------- C42 *)

Theorem C42_modulate :
(* symbol k is the point whose label is group k of the bits read as a binary number (the last group may be shorter) *)
  forall (c : list C) (r : bool) (md : modem) (bs : list Z), modem_init c r = Ok md -> (2 <= length c)%nat -> bits bs -> bs <> [] ->
    exists s : list C, modulate md bs = Ok s /\ length s = ((length bs + num_bits md - 1) / num_bits md)%nat /\
      forall k, (k < length s)%nat -> nth k s C0 = nth (Z.to_nat (bitarray2dec (slice bs (k * num_bits md) (k * num_bits md + num_bits md)))) (points md) C0.
Proof. exact C42_modulate_proof. Qed.
Print Assumptions C42_modulate.

Theorem C42_round_trip :
(* distinct points: demodulation inverts modulation; if the number of bits is not a multiple of the bits per symbol, the last
     group comes back completed with zeros on its left *)
  forall (c : list C) (r : bool) (md : modem) (bs : list Z) (v : R), modem_init c r = Ok md -> NoDup c -> (2 <= length c)%nat -> bits bs -> bs <> [] ->
    let b := num_bits md in let n := (length bs / b)%nat in let left := (length bs mod b)%nat in
    exists s : list C, modulate md bs = Ok s /\
      (left = 0%nat -> demodulate md s Hard v = Ok (inl bs)) /\
      (left <> 0%nat -> demodulate md s Hard v = Ok (inl (firstn (n * b) bs ++ repeat 0 (b - left) ++ skipn (n * b) bs))).
Proof. exact C42_round_trip_proof. Qed.
Print Assumptions C42_round_trip.
Example C42_witness : NoDup [C0; C1; Ci; mkC 1 1] /\ bits [1; 0; 1; 1; 0] /\ exists md, modem_init [C0; C1; Ci; mkC 1 1] true = Ok md.
Proof.
  split; [|split; [repeat constructor; unfold is_bit; lia|destruct (C41_gray_labels [C0; C1; Ci; mkC 1 1] 2 eq_refl ltac:(lia)) as (md & l & E & _); exists md; exact E]].
  repeat constructor; cbn; intros H; repeat (destruct H as [H|H]; [injection H; intros; lra|]); exact H.
Qed.

Theorem C42_psk_qam :
forall (m : nat) (md : modem) (bs : list Z) (v : R), psk_modem m = Ok md \/ qam_modem m = Ok md -> bits bs -> bs <> [] -> (length bs mod num_bits md = 0)%nat ->
    exists s : list C, modulate md bs = Ok s /\ demodulate md s Hard v = Ok (inl bs).
Proof. exact C42_psk_qam_proof. Qed.
Print Assumptions C42_psk_qam.

Theorem C42_nearest :
(* hard decisions: each received value is replaced by the label of a nearest point, the smallest such label on ties *)
  forall (c : list C) (r : bool) (md : modem) (ys : list C) (v : R), modem_init c r = Ok md ->
    exists (out : list Z) (label : nat -> nat), demodulate md ys Hard v = Ok (inl out) /\ length out = (length ys * num_bits md)%nat /\
      forall q, (q < length ys)%nat ->
        let dist l := Cabs (nth q ys C0 - nth l (points md) C0)%C in
        (label q < length (points md))%nat /\ (forall l, (l < length (points md))%nat -> (dist (label q) <= dist l)%R) /\ (forall l, (l < label q)%nat -> (dist (label q) < dist l)%R) /\
        forall j, (j < num_bits md)%nat -> nth (q * num_bits md + j) out 0 = digit (num_bits md) (label q) j.
Proof. exact C42_nearest_proof. Qed.
Print Assumptions C42_nearest.

Theorem C42_errors :
(* no bits: ValueError (np.vectorize); a constellation of one point: ZeroDivisionError *)
  forall (md : modem) (bs : list Z) (ys : list C) (v : R),
    ((1 <= num_bits md)%nat -> modulate md [] = Err ValueError) /\ (num_bits md = 0%nat -> modulate md bs = Err ZeroDivisionError) /\ demodulate md ys OtherType v = Err ValueError.
Proof. exact C42_errors_proof. Qed.
Print Assumptions C42_errors.

(* ---------------------------------------------------------------- C43 *)

Theorem C43_llr :
(* soft output: for symbol q and bit j the logarithm of the likelihood ratio, positive when 1 is more likely *)
  forall (c : list C) (r : bool) (md : modem) (ys : list C) (v : R), modem_init c r = Ok md -> (0 < v)%R ->
    exists out : list R, demodulate md ys Soft v = Ok (inr out) /\ length out = (length ys * num_bits md)%nat /\
      forall q j, (q < length ys)%nat -> (j < num_bits md)%nat ->
        let like := likelihood (points md) (num_bits md) (nth q ys C0) v j in
        (0 < like 1%Z)%R /\ (0 < like 0%Z)%R /\ nth (q * num_bits md + j) out 0%R = ln (like 1%Z / like 0%Z)%R /\
        ((0 < nth (q * num_bits md + j) out 0)%R <-> (like 0%Z < like 1%Z)%R).
Proof. exact C43_llr_proof. Qed.
Print Assumptions C43_llr.

Theorem C43_two_points :
(* binary constellation: the LLR is the difference of the squared distances divided by the noise variance *)
  forall (p0 p1 y : C) (v : R), (0 < v)%R ->
    exists md : modem, modem_init [p0; p1] true = Ok md /\ demodulate md [y] Soft v = Ok (inr [((Cnorm2 (y - p0)%C - Cnorm2 (y - p1)%C) / v)%R]).
Proof. exact C43_two_points_proof. Qed.
Print Assumptions C43_two_points.

(* ---------------------------------------------------------------- C44 *)

Theorem C44_energy :
(* Es is the mean squared magnitude of the given points, whatever the labelling *)
  forall (c : list C) (r : bool) (md : modem), modem_init c r = Ok md -> energy md = (Rsum (map Cnorm2 c) / INR (length c))%R.
Proof. exact C44_energy_proof. Qed.
Print Assumptions C44_energy.

Theorem C44_psk_qam :
forall m : nat, (forall md, psk_modem m = Ok md -> energy md = 1%R) /\ (forall md, qam_modem m = Ok md -> energy md = (2 * (INR m - 1) / 3)%R).
Proof. exact C44_psk_qam_proof. Qed.
Print Assumptions C44_psk_qam.

(* ---------------------------------------------------------------- C68 *)

Theorem C68_decision_regions :
(* every received value closer to the sent point than to any other: no bit error *)
  forall (c : list C) (r : bool) (md : modem) (bs : list Z), modem_init c r = Ok md -> NoDup c -> (2 <= length c)%nat -> bits bs -> bs <> [] -> (length bs mod num_bits md = 0)%nat ->
    exists s : list C, modulate md bs = Ok s /\ forall (ys : list C) (v : R), Forall2 (closest c) s ys -> demodulate md ys Hard v = Ok (inl bs).
Proof. exact C68_decision_regions_proof. Qed.
Print Assumptions C68_decision_regions.

Theorem C68_margin :
(* points at least d apart, every noise value smaller in magnitude than d / 2: no bit error *)
  forall (c : list C) (r : bool) (md : modem) (bs : list Z) (d : R), modem_init c r = Ok md -> NoDup c -> (2 <= length c)%nat -> bits bs -> bs <> [] -> (length bs mod num_bits md = 0)%nat ->
    (forall p p', In p c -> In p' c -> p <> p' -> (d <= Cabs (p - p')%C)%R) ->
    exists s : list C, modulate md bs = Ok s /\ forall (ys : list C) (v : R), Forall2 (fun x y => (Cabs (y - x)%C < d / 2)%R) s ys -> demodulate md ys Hard v = Ok (inl bs).
Proof. exact C68_margin_proof. Qed.
Print Assumptions C68_margin.

Theorem C68_psk :
forall (m : nat) (md : modem) (bs : list Z), psk_modem m = Ok md -> bits bs -> bs <> [] -> (length bs mod num_bits md = 0)%nat ->
    exists s : list C, modulate md bs = Ok s /\ forall (ys : list C) (v : R), Forall2 (fun x y => (Cabs (y - x)%C < sin (PI / INR m))%R) s ys -> demodulate md ys Hard v = Ok (inl bs).
Proof. exact C68_psk_proof. Qed.
Print Assumptions C68_psk.

Theorem C68_qam :
(* square QAM: real and imaginary parts of the noise both smaller than 1 in magnitude *)
  forall (m : nat) (md : modem) (bs : list Z), qam_modem m = Ok md -> bits bs -> bs <> [] -> (length bs mod num_bits md = 0)%nat ->
    exists s : list C, modulate md bs = Ok s /\
      forall (ys : list C) (v : R), Forall2 (fun x y => (Rabs (re y - re x) < 1 /\ Rabs (im y - im x) < 1)%R) s ys -> demodulate md ys Hard v = Ok (inl bs).
Proof. exact C68_qam_proof. Qed.
Print Assumptions C68_qam.
Example C68_witness : exists md s, qam_modem 16 = Ok md /\ modulate md [1; 0; 1; 1; 0; 0; 1; 0] = Ok s /\ bits [1; 0; 1; 1; 0; 0; 1; 0] /\ (length [1; 0; 1; 1; 0; 0; 1; 0] mod num_bits md = 0)%nat /\
  Forall2 (fun x y => (Rabs (re y - re x) < 1 /\ Rabs (im y - im x) < 1)%R) s (map (fun x => (x + mkC (1 / 2) (- (3 / 4)))%C) s).
Proof.
  destruct (C41_qam 2 ltac:(lia)) as (md & l & E & EB & _). assert (Hb : bits [1; 0; 1; 1; 0; 0; 1; 0]) by (repeat constructor; unfold is_bit; lia).
  assert (Hm : (length [1; 0; 1; 1; 0; 0; 1; 0] mod num_bits md = 0)%nat) by (rewrite EB; reflexivity).
  destruct (C42_psk_qam 16 md [1; 0; 1; 1; 0; 0; 1; 0] 0%R (or_intror E) Hb ltac:(discriminate) Hm) as (s & Es & _). exists md, s. repeat (split; [assumption|]).
  clear. induction s as [|x s IH]; [constructor|]. cbn [map]. constructor; [|exact IH]. unfold Cadd. cbn [re im]. split; [replace (re x + 1 / 2 - re x)%R with (1 / 2)%R by ring|replace (im x + - (3 / 4) - im x)%R with (- (3 / 4))%R by ring; rewrite Rabs_Ropp]; rewrite Rabs_right; lra.
Qed.

Theorem C68_max_log :
(* the exact log-likelihood ratio differs from the max-log value (difference of the smallest squared distances, over the noise
     variance) by at most ln (M / 2) *)
  forall (c : list C) (r : bool) (md : modem) (ys : list C) (v : R), modem_init c r = Ok md -> (0 < v)%R ->
    exists out : list R, demodulate md ys Soft v = Ok (inr out) /\ length out = (length ys * num_bits md)%nat /\
      forall q j m0 m1, (q < length ys)%nat -> (j < num_bits md)%nat ->
        nearest_bit (points md) (num_bits md) (nth q ys C0) j 0 m0 -> nearest_bit (points md) (num_bits md) (nth q ys C0) j 1 m1 ->
        (Rabs (nth (q * num_bits md + j) out 0 - (m0 - m1) / v) <= ln (INR (2 ^ (num_bits md - 1))))%R.
Proof. exact C68_max_log_proof. Qed.
Print Assumptions C68_max_log.

Theorem C68_soft_signs :
(* points at least d apart, noise of magnitude at most r < d / 2 and a noise variance v small enough: every soft output has the
     sign of the bit sent, positive for 1 and negative for 0 *)
  forall (c : list C) (g : bool) (md : modem) (bs : list Z) (d r v : R), modem_init c g = Ok md -> NoDup c -> (2 <= length c)%nat -> bits bs -> bs <> [] -> (length bs mod num_bits md = 0)%nat ->
    (forall p p', In p c -> In p' c -> p <> p' -> (d <= Cabs (p - p')%C)%R) -> (0 < d)%R -> (0 < v)%R -> (v * ln (INR (2 ^ (num_bits md - 1))) < d * (d - 2 * r))%R ->
    exists s : list C, modulate md bs = Ok s /\ forall ys : list C, Forall2 (fun x y => (Cabs (y - x)%C <= r)%R) s ys ->
      exists out : list R, demodulate md ys Soft v = Ok (inr out) /\ length out = length bs /\
        forall i, (i < length bs)%nat -> (nth i bs 0 = 1 -> (0 < nth i out 0)%R) /\ (nth i bs 0 = 0 -> (nth i out 0 < 0)%R).
Proof. exact C68_soft_signs_proof. Qed.
Print Assumptions C68_soft_signs.
Example C68_soft_witness : exists md, modem_init [mkC 1 0; mkC (-1) 0] true = Ok md /\ (forall p p', In p [mkC 1 0; mkC (-1) 0] -> In p' [mkC 1 0; mkC (-1) 0] -> p <> p' -> (2 <= Cabs (p - p')%C)%R) /\
  (3 * ln (INR (2 ^ (num_bits md - 1))) < 2 * (2 - 2 * (9 / 10)))%R.
Proof.
  destruct (C41_gray_labels [mkC 1 0; mkC (-1) 0] 1 eq_refl ltac:(lia)) as (md & l & E & EB & _). exists md. split; [exact E|]. split.
  - intros p p' [<-|[<-|[]]] [<-|[<-|[]]] H; try congruence; unfold Cabs, Cnorm2, Csub; cbn [re im]; rewrite <- (sqrt_square 2) at 1 by lra; apply sqrt_le_1_alt; lra.
  - rewrite EB. cbn [Nat.sub Nat.pow]. change (INR 1) with 1%R. rewrite ln_1. lra.
Qed.

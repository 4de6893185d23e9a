(* Distances, power, Zadoff-Chu sequences, filters, frequency offset: properties C06, C08, C11, C61, C62. *)
From Coq Require Import QArith.
From Verif Require Import Base UtilModel Cplx ModemModel DspModel DspTop.
Close Scope Q_scope.
Open Scope R_scope.

(* ---------------------------------------------------------------- C06 *)

Theorem C06_metric :
(* arrays of the same length *)
  forall a b c : list R, length a = length b -> length b = length c ->
    exists dab dbc dac, euclid_dist a b = Ok dab /\ euclid_dist b c = Ok dbc /\ euclid_dist a c = Ok dac /\
      dab = Rsum (map (fun i => (nth i a 0 - nth i b 0) * (nth i a 0 - nth i b 0)) (seq 0 (length a))) /\
      0 <= dab /\ euclid_dist b a = Ok dab /\ (dab = 0 <-> a = b) /\ sqrt dac <= sqrt dab + sqrt dbc.
Proof. exact C06_metric_proof. Qed.
Print Assumptions C06_metric.

Theorem C06_shape :
(* arrays of different lengths: ValueError, except that an array of length 1 is compared with every entry of the other *)
  forall a b : list R, length a <> length b ->
    (length a <> 1%nat -> length b <> 1%nat -> euclid_dist a b = Err ValueError) /\
    (forall y, b = [y] -> euclid_dist a b = euclid_dist a (repeat y (length a))) /\ (forall x, a = [x] -> euclid_dist a b = euclid_dist (repeat x (length b)) b).
Proof. exact C06_shape_proof. Qed.
Print Assumptions C06_shape.
Example C06_witness : euclid_dist [1; 2] [1; 5] = Ok 9 /\ euclid_dist [1; 2; 3] [1; 5] = Err ValueError.
Proof. split; [|reflexivity]. unfold euclid_dist. cbn. f_equal. ring. Qed.

(* ---------------------------------------------------------------- C08 *)

Theorem C08_power :
forall s : list C, s <> [] -> exists P, signal_power s = Ok P /\ P = Rsum (map (fun z => re z * re z + im z * im z) s) / INR (length s) /\ 0 <= P /\
    (P = 0 <-> Forall (fun z => z = C0) s) /\ (forall c, signal_power (map (fun z => (c * z)%C) s) = Ok (Cnorm2 c * P)) /\ forall t, signal_power (s ++ t) = Ok ((INR (length s) * P + Rsum (map Cnorm2 t)) / (INR (length s) + INR (length t))).
Proof. exact C08_power_proof. Qed.
Print Assumptions C08_power.

Theorem C08_upsample :
(* upsampling by n divides the power by n *)
  forall (s : list C) (n : nat), s <> [] -> (1 <= n)%nat ->
    exists y P, upsample C0 s n = Ok (map Some y) /\ signal_power s = Ok P /\ signal_power y = Ok (P / INR n).
Proof. exact C08_upsample_proof. Qed.
Print Assumptions C08_upsample.
Theorem C08_empty : signal_power [] = Err ValueError.
Proof. reflexivity. Qed.
Example C08_witness : [C1; Ci] <> [] /\ signal_power [C1; (C1 + C1)%C] = Ok (5 / 2).
Proof. split; [discriminate|]. rewrite power_eq by discriminate. unfold Cnorm2, C1, Cadd. cbn. f_equal. field. Qed.

(* ---------------------------------------------------------------- C11 *)

Theorem C11_accepts :
(* integers u, N and any integer-valued q: accepted exactly if 0 < u < N and gcd(u, N) = 1, ValueError otherwise *)
  forall (u N : Z) (q : pynum), (forall q', q = PyFloat q' -> exists z, Qeq q' (inject_Z z)) ->
    ((0 < u < N /\ Z.gcd u N = 1)%Z -> exists z, zcsequence (PyInt u) (PyInt N) q = Ok z /\ length z = Z.to_nat N) /\
    (~ (0 < u < N /\ Z.gcd u N = 1)%Z -> zcsequence (PyInt u) (PyInt N) q = Err ValueError).
Proof. exact C11_accepts_proof. Qed.
Print Assumptions C11_accepts.

Theorem C11_floats :
(* a non-integer argument: ValueError; an integer-valued float q is as good as the integer; u or N given as an integer-valued float with
     0 < u < N: TypeError *)
  forall u N q : pynum,
    (forall x, In (PyFloat x) [u; N; q] -> (forall z, ~ Qeq x (inject_Z z)) -> zcsequence u N q = Err ValueError) /\
    (forall x z, Qeq x (inject_Z z) -> zcsequence u N (PyFloat x) = zcsequence u N (PyInt z)) /\
    (forall (x y : Q) (a b : Z), Qeq x (inject_Z a) -> Qeq y (inject_Z b) -> (u = PyFloat x /\ (N = PyInt b \/ N = PyFloat y) \/ u = PyInt a /\ N = PyFloat y) -> (0 < a < b)%Z -> q = PyInt 0 -> zcsequence u N q = Err TypeError).
Proof. exact C11_floats_proof. Qed.
Print Assumptions C11_floats.

Theorem C11_cazac :
(* constant amplitude; zero periodic autocorrelation at every lag that is not a multiple of N; flat spectrum *)
  forall (u N q : Z), (0 < u < N)%Z -> Z.gcd u N = 1%Z -> exists z, zcsequence (PyInt u) (PyInt N) (PyInt q) = Ok z /\ length z = Z.to_nat N /\
    (forall n, (n < Z.to_nat N)%nat -> Cabs (nth n z C0) = 1 /\ nth n z C0 = cis (- (PI * IZR u * INR n * (INR n + IZR (N mod 2) + 2 * IZR q)) / IZR N)) /\
    (forall d, (0 < d < Z.to_nat N)%nat -> Csum (map (fun n => nth ((n + d) mod Z.to_nat N) z C0 * Cconj (nth n z C0))%C (seq 0 (Z.to_nat N))) = C0) /\
    (forall k : Z, Cabs (Csum (map (fun n => nth n z C0 * cis (- (2 * PI * IZR k * INR n / IZR N)))%C (seq 0 (Z.to_nat N)))) = sqrt (IZR N)).
Proof. exact C11_cazac_proof. Qed.
Print Assumptions C11_cazac.

Theorem C11_cross_correlation :
(* two sequences of the same length whose root indices differ by a number coprime to N: every cyclic cross-correlation has magnitude sqrt N *)
  forall (u v N q q' : Z) (d : nat), (0 < u < N)%Z -> (0 < v < N)%Z -> Z.gcd u N = 1%Z -> Z.gcd v N = 1%Z -> Z.gcd (u - v) N = 1%Z ->
    exists y z, zcsequence (PyInt u) (PyInt N) (PyInt q) = Ok y /\ zcsequence (PyInt v) (PyInt N) (PyInt q') = Ok z /\
      Cabs (Csum (map (fun n => nth n y C0 * Cconj (nth ((n + d) mod Z.to_nat N) z C0))%C (seq 0 (Z.to_nat N)))) = sqrt (IZR N).
Proof. exact C11_cross_correlation_proof. Qed.
Print Assumptions C11_cross_correlation.

Theorem C11_shift :
(* q shifts the sequence cyclically up to a constant factor of magnitude 1 *)
  forall (u N q : Z), (0 < u < N)%Z -> Z.gcd u N = 1%Z -> exists z z0, zcsequence (PyInt u) (PyInt N) (PyInt q) = Ok z /\ zcsequence (PyInt u) (PyInt N) (PyInt 0) = Ok z0 /\
    let k := Z.to_nat (q mod N) in Cabs (nth k z0 C0) = 1 /\ forall n, (n < Z.to_nat N)%nat -> nth n z C0 = (nth ((n + k) mod Z.to_nat N) z0 C0 * Cconj (nth k z0 C0))%C.
Proof. exact C11_shift_proof. Qed.
Print Assumptions C11_shift.

Theorem C11_exact_shift_refuted :
(* the documented "cyclic shift": not exactly a shift of the sequence for q = 0 *)
  ~ (forall (u N q : Z) z z0, (0 < u < N)%Z -> zcsequence (PyInt u) (PyInt N) (PyInt q) = Ok z -> zcsequence (PyInt u) (PyInt N) (PyInt 0) = Ok z0 ->
       forall n, (n < Z.to_nat N)%nat -> nth n z C0 = nth ((n + Z.to_nat (q mod N)) mod Z.to_nat N) z0 C0).
Proof. exact C11_exact_shift_refuted_proof. Qed.
Print Assumptions C11_exact_shift_refuted.
Example C11_witness : (0 < 25 < 139)%Z /\ Z.gcd 25 139 = 1%Z /\ (0 < 29 < 139)%Z /\ Z.gcd 29 139 = 1%Z /\ Z.gcd (25 - 29) 139 = 1%Z.
Proof. repeat split; reflexivity. Qed.

(* ---------------------------------------------------------------- C61 *)

Theorem C61_times :
(* the N sample times are (x - N/2)/Fs, the same for all filters; t = 0 is among them exactly if N is even and positive; Fs = 0 raises *)
  forall (N : nat) (alpha Ts Fs : R),
    (Fs <> 0 -> exists times h1 h2 h3 h4, rcosfilter N alpha Ts Fs = Ok (times, h1) /\ rrcosfilter N alpha Ts Fs = Ok (times, h2) /\ gaussianfilter N alpha Fs = Ok (times, h3) /\ rectfilter N Fs = Ok (times, h4) /\
       length times = N /\ length h1 = N /\ length h2 = N /\ length h3 = N /\ h4 = repeat 1 N /\ (forall x, (x < N)%nat -> nth x times 0 = (INR x - INR N / 2) / Fs) /\ (In 0 times <-> Nat.Even N /\ (1 <= N)%nat)) /\
    (Fs = 0 -> rcosfilter N alpha Ts Fs = Err ZeroDivisionError /\ rrcosfilter N alpha Ts Fs = Err ZeroDivisionError /\ gaussianfilter N alpha Fs = Err ZeroDivisionError /\ rectfilter N Fs = Err ZeroDivisionError).
Proof. exact C61_times_proof. Qed.
Print Assumptions C61_times.

Theorem C61_raised_cosine :
(* the samples are the values, at the sample times, of one continuous even function: the raised cosine, with its singularities removed *)
  forall (alpha Ts : R), Ts <> 0 -> exists h : R -> R, continuity h /\ (forall t, h (- t) = h t) /\ h 0 = 1 /\ (forall k : Z, k <> 0%Z -> h (IZR k * Ts) = 0) /\
    (forall t, t <> 0 -> (2 * alpha * t / Ts) * (2 * alpha * t / Ts) <> 1 -> h t = sin (PI * t / Ts) / (PI * t / Ts) * (cos (PI * alpha * t / Ts) / (1 - (2 * alpha * t / Ts) * (2 * alpha * t / Ts)))) /\
    forall (N : nat) (Fs : R), Fs <> 0 -> exists times, rcosfilter N alpha Ts Fs = Ok (times, map (fun t => Some (h t)) times).
Proof. exact C61_raised_cosine_proof. Qed.
Print Assumptions C61_raised_cosine.

Theorem C61_nyquist_samples :
(* an even length and a whole number k of samples per symbol: the centre sample is 1 and every other symbol-spaced sample is 0 *)
  forall (half k : nat) (alpha Ts Fs : R), (1 <= k)%nat -> Fs <> 0 -> Ts * Fs = INR k -> exists times h, rcosfilter (2 * half) alpha Ts Fs = Ok (times, h) /\ length h = (2 * half)%nat /\
    forall j : Z, (0 <= Z.of_nat half + j * Z.of_nat k < 2 * Z.of_nat half)%Z -> nth (Z.to_nat (Z.of_nat half + j * Z.of_nat k)) h None = Some (if (j =? 0)%Z then 1 else 0).
Proof. exact C61_nyquist_samples_proof. Qed.
Print Assumptions C61_nyquist_samples.

Theorem C61_root_raised_cosine :
(* likewise for the root raised cosine *)
  forall (alpha Ts : R), Ts <> 0 -> exists h : R -> R, continuity h /\ (forall t, h (- t) = h t) /\ h 0 = 1 - alpha + 4 * alpha / PI /\
    (forall t, t <> 0 -> (4 * alpha * t / Ts) * (4 * alpha * t / Ts) <> 1 ->
       h t = (sin (PI * t * (1 - alpha) / Ts) + 4 * alpha * (t / Ts) * cos (PI * t * (1 + alpha) / Ts)) / (PI * t * (1 - (4 * alpha * t / Ts) * (4 * alpha * t / Ts)) / Ts)) /\
    forall (N : nat) (Fs : R), Fs <> 0 -> exists times, rrcosfilter N alpha Ts Fs = Ok (times, map (fun t => Some (h t)) times).
Proof. exact C61_root_raised_cosine_proof. Qed.
Print Assumptions C61_root_raised_cosine.

Theorem C61_gaussian :
(* positive, even, largest at 0, decreasing away from 0 *)
  forall (alpha : R), 0 < alpha -> exists h : R -> R, h 0 = sqrt PI / alpha /\ (forall t, 0 < h t <= h 0) /\ (forall t, h (- t) = h t) /\ (forall s t, 0 <= s < t -> h t < h s) /\
    forall (N : nat) (Fs : R), Fs <> 0 -> exists times, gaussianfilter N alpha Fs = Ok (times, map (fun t => Some (h t)) times).
Proof. exact C61_gaussian_proof. Qed.
Print Assumptions C61_gaussian.
Example C61_witness : (2 * (10 / 1) = INR 20)%R /\ (1 <= 20)%nat /\ 10 <> 0.
Proof. split; [cbn; lra|]. split; [lia|lra]. Qed.

(* ---------------------------------------------------------------- C62 *)

Theorem C62_offset :
forall (w : list C) (Fs d : R), Fs <> 0 -> exists y, add_frequency_offset w Fs d = Ok y /\ length y = length w /\
    (forall i, (i < length w)%nat -> Cabs (nth i y C0) = Cabs (nth i w C0) /\ nth i y C0 = (nth i w C0 * cis (2 * PI * d * INR i / Fs))%C) /\
    (forall d', add_frequency_offset y Fs d' = add_frequency_offset w Fs (d + d')) /\ add_frequency_offset y Fs (- d) = Ok w /\ (forall k : Z, add_frequency_offset w Fs (d + IZR k * Fs) = Ok y) /\ signal_power y = signal_power w.
Proof. exact C62_offset_proof. Qed.
Print Assumptions C62_offset.

Theorem C62_zero_rate :
forall w d, add_frequency_offset w 0 d = Err ZeroDivisionError.
Proof. exact C62_zero_rate_proof. Qed.
Print Assumptions C62_zero_rate.
Example C62_witness : exists y, add_frequency_offset [C1; C1] 4 1 = Ok y /\ nth 1 y C0 = Ci.
Proof.
  destruct (C62_offset [C1; C1] 4 1 ltac:(lra)) as (y & E & L & H & _). exists y. split; [exact E|]. destruct (H 1%nat ltac:(cbn; lia)) as (_ & ->). cbn [nth]. replace (2 * PI * 1 * INR 1 / 4) with (PI / 2) by (cbn; field). unfold cis. rewrite cos_PI2, sin_PI2. creal.
Qed.

(* MIMO detection: properties C45-C49, C73. *)
From Coq Require Import Permutation Sorted.
From Verif Require Import Base UtilModel Cplx ModemModel ModemSpec MimoModel MimoSpec BestFirstRun MimoTop.
Open Scope Z_scope.

(* ---------------------------------------------------------------- C45 *)

Theorem C45_ml :
(* the result is a vector of constellation points at minimal distance *)
  forall (y : list C) (h : list (list C)) (n : nat) (c : list C), columns n h -> length y = length h -> c <> [] ->
    exists x, mimo_ml y h n c = Ok x /\ ml_decision y h c n x.
Proof. exact C45_ml_proof. Qed.
Print Assumptions C45_ml.

Theorem C45_noiseless :
(* no noise and a channel that separates the candidates: the sent vector *)
  forall (h : list (list C)) (n : nat) (c x : list C), columns n h -> vector_of c n x -> c <> [] ->
    (forall a b, vector_of c n a -> vector_of c n b -> map (fun row => apply_row row a) h = map (fun row => apply_row row b) h -> a = b) ->
    mimo_ml (map (fun row => apply_row row x) h) h n c = Ok x.
Proof. exact C45_noiseless_proof. Qed.
Print Assumptions C45_noiseless.
Example C45_witness : columns 2 hx /\ injective 2 hx /\ vector_of cx2 2 [C1; mkC (-1) 0].
Proof. split; [repeat constructor|]. split; [exact hx_injective|]. split; [reflexivity|]. repeat constructor; cbn; tauto. Qed.

Theorem C45_errors :
(* no constellation points (and at least one antenna), or y and h of different heights: ValueError *)
  forall (y : list C) (h : list (list C)) (n : nat) (c : list C),
    ((1 <= n)%nat -> mimo_ml y h n [] = Err ValueError) /\ ((2 <= length y)%nat -> (2 <= length h)%nat -> length y <> length h -> c <> [] -> mimo_ml y h n c = Err ValueError).
Proof. exact C45_errors_proof. Qed.
Print Assumptions C45_errors.

(* ---------------------------------------------------------------- C46 *)

Theorem C46_full_width :
(* K at least m^(n-1): the hard output is a maximum-likelihood decision, whatever QR decomposition numpy returns, however
     argsort breaks ties and whatever np.empty contains *)
  forall argsort garbage (y : list C) (h q r : list (list C)) (n : nat) (c : list C) (K : nat) (v : R) demode, sorting argsort -> length garbage = n ->
    is_qr h n q r -> (n <= length h)%nat -> length y = length h -> c <> [] -> (length c ^ (n - 1) <= K)%nat ->
    exists x, kbest argsort garbage y h q r n c K v Hard demode = Ok (KHard x) /\ ml_decision y h c n x.
Proof. exact C46_full_width_proof. Qed.
Print Assumptions C46_full_width.

Theorem C46_noiseless :
(* no noise: any K >= 1 recovers the sent vector if the channel is injective *)
  forall argsort garbage (h q r : list (list C)) (n : nat) (c x : list C) (K : nat) (v : R) demode, sorting argsort -> length garbage = n ->
    is_qr h n q r -> (n <= length h)%nat -> injective n h -> vector_of c n x -> c <> [] -> (1 <= K)%nat ->
    kbest argsort garbage (map (fun row => apply_row row x) h) h q r n c K v Hard demode = Ok (KHard x).
Proof. exact C46_noiseless_proof. Qed.
Print Assumptions C46_noiseless.

Theorem C46_soft :
(* soft output: max-log LLRs over a list of at most K vectors; all vectors if K is at least m^n *)
  forall argsort garbage (y : list C) (h q r : list (list C)) (n b : nat) (c : list C) (K : nat) (v : R) demode lab, sorting argsort -> length garbage = n ->
    columns n h -> (n <= length h)%nat -> length y = length h -> c <> [] -> (1 <= K)%nat -> (0 < v)%R -> demaps demode c b lab ->
    exists (pts : list (list C)) (l : list ext), kbest argsort garbage y h q r n c K v Soft demode = Ok (KSoft l) /\
      pts <> [] /\ (length pts <= K)%nat /\ Forall (vector_of c n) pts /\ ((length c ^ n <= K)%nat -> forall x, vector_of c n x -> In x pts) /\ length l = (n * b)%nat /\
      forall k, (k < n * b)%nat -> exists d0 d1, smallest y h pts (fun x => nth k (flat_map lab x) 2 = 0) d0 /\ smallest y h pts (fun x => nth k (flat_map lab x) 2 = 1) d1 /\ nth k l NaN = max_log_value v d0 d1.
Proof. exact C46_soft_proof. Qed.
Print Assumptions C46_soft.
Example C46_witness : sorting rsort /\ is_qr hx 2 id2 hx /\ injective 2 hx /\ vector_of cx2 2 [C1; mkC (-1) 0] /\ demaps (fun x => Ok (map (fun s => if Rlt_dec 0 (re s) then 1 else 0) x)) cx2 1 (fun s => [if Rlt_dec 0 (re s) then 1 else 0]).
Proof.
  split; [exact rsort_sorting|]. split; [exact hx_qr|]. split; [exact hx_injective|]. split; [split; [reflexivity|]; repeat constructor; cbn; tauto|]. split.
  - intros s Hs. split; [reflexivity|]. constructor; [|constructor]. destruct (Rlt_dec 0 (re s)); [right|left]; reflexivity.
  - intros x _. reflexivity.
Qed.

Theorem C46_errors :
(* more columns than rows, a bad output type, or K = 0: an exception *)
  forall argsort garbage (y : list C) (h q r : list (list C)) (n : nat) (c : list C) (K : nat) (v : R) t demode,
    ((length h < n)%nat -> kbest argsort garbage y h q r n c K v t demode = Err ValueError) /\
    ((n <= length h)%nat -> length y = length h -> c <> [] -> kbest argsort garbage y h q r n c K v OtherType demode = Err ValueError) /\
    ((1 <= n <= length h)%nat -> length y = length h -> (2 <= length c)%nat -> kbest argsort garbage y h q r n c 0 v t demode = Err ValueError).
Proof. exact C46_errors_proof. Qed.
Print Assumptions C46_errors.

(* ---------------------------------------------------------------- C47 *)

Theorem C47_equal_magnitudes :
(* the search ends, after at most m^N rounds (m points, N rows), and all the LLRs have the same magnitude, at most llr_max: they are the bits of some vector of points with
     sign (+ for 0, - for 1) times one number *)
  forall argsort (y : list C) (h q r : list (list C)) (n : nat) (c : list C) (sizes : list nat) demode lab (llr_max : R), sorting argsort -> length y = length h ->
    (2 <= length c)%nat -> demaps demode c (Nat.log2 (length c)) lab -> (0 <= llr_max)%R -> (2 <= length h <= n)%nat -> (length h - 1 <= length sizes)%nat -> Forall (fun s => (1 <= s)%nat) sizes ->
    exists x del, vector_of c (length h) x /\ (0 <= del <= llr_max)%R /\
      forall fuel, (length c ^ length h <= fuel)%nat -> best_first_detector argsort fuel y h q r n c sizes demode llr_max = Some (Ok (map (fun b => if b =? 0 then del else (- del)%R) (flat_map lab x))).
Proof. exact C47_equal_magnitudes_proof. Qed.
Print Assumptions C47_equal_magnitudes.

Theorem C47_ml :
(* stacks that never overflow, square channel: the signs are those of a maximum-likelihood decision, and no LLR is zero if it
     is the only one and the points are distinct *)
  forall argsort (y : list C) (h q r : list (list C)) (n : nat) (c : list C) (sizes : list nat) demode lab (llr_max : R), sorting argsort -> length y = length h ->
    (2 <= length c)%nat -> demaps demode c (Nat.log2 (length c)) lab -> (0 <= llr_max)%R -> (2 <= n)%nat -> is_qr h n q r -> length h = n -> (n - 1 <= length sizes)%nat -> Forall (fun s => (length c ^ n <= s)%nat) sizes ->
    exists x del, ml_decision y h c n x /\ (0 <= del <= llr_max)%R /\
      (forall fuel, (length c ^ n <= fuel)%nat -> best_first_detector argsort fuel y h q r n c sizes demode llr_max = Some (Ok (map (fun b => if b =? 0 then del else (- del)%R) (flat_map lab x)))) /\
      ((0 < llr_max)%R -> NoDup c -> (forall x', ml_decision y h c n x' -> x' = x) -> (0 < del)%R).
Proof. exact C47_ml_proof. Qed.
Print Assumptions C47_ml.

Theorem C47_magnitude :
(* stacks that never overflow, square channel, distinct points: the common magnitude is the gap between the maximum-likelihood decision
     and the nearest vector that differs from it beyond the first entry, or llr_max if that is smaller *)
  forall argsort (y : list C) (h q r : list (list C)) (n : nat) (c : list C) (sizes : list nat) demode lab (llr_max : R), sorting argsort -> length y = length h ->
    (2 <= length c)%nat -> NoDup c -> demaps demode c (Nat.log2 (length c)) lab -> (0 <= llr_max)%R -> (2 <= n)%nat -> is_qr h n q r -> length h = n -> (n - 1 <= length sizes)%nat -> Forall (fun s => (length c ^ n <= s)%nat) sizes ->
    exists x del, ml_decision y h c n x /\ (0 <= del <= llr_max)%R /\
      (forall fuel, (length c ^ n <= fuel)%nat -> best_first_detector argsort fuel y h q r n c sizes demode llr_max = Some (Ok (map (fun b => if b =? 0 then del else (- del)%R) (flat_map lab x)))) /\
      (forall x', vector_of c n x' -> tl x' <> tl x -> (del <= sq_dist y h x' - sq_dist y h x)%R) /\
      (del = llr_max \/ exists x', vector_of c n x' /\ tl x' <> tl x /\ del = (sq_dist y h x' - sq_dist y h x)%R).
Proof. exact C47_magnitude_proof. Qed.
Print Assumptions C47_magnitude.

Theorem C47_tall :
(* more rows than columns, or a single row: TypeError after a finite search *)
  forall argsort (y : list C) (h q r : list (list C)) (n : nat) (c : list C) (sizes : list nat) demode lab (llr_max : R), sorting argsort -> length y = length h ->
    (2 <= length c)%nat -> demaps demode c (Nat.log2 (length c)) lab -> (0 <= llr_max)%R -> (1 <= n)%nat -> (1 <= length h)%nat -> (length h - 1 <= length sizes)%nat -> (n < length h)%nat \/ length h = 1%nat ->
    forall fuel, (length c ^ length h <= fuel)%nat -> best_first_detector argsort fuel y h q r n c sizes demode llr_max = Some (Err TypeError).
Proof. exact C47_tall_proof. Qed.
Print Assumptions C47_tall.

Theorem C47_max_log_refuted :
(* the returned values are in general not max-log LLRs, nor proportional to them, however large the stacks and llr_max are *)
  exists (y : list C) (h : list (list C)) (c : list C) (pts : list (list C)) demode lab (l0 l1 : R),
    length y = 2%nat /\ length h = 2%nat /\ columns 2 h /\ injective 2 h /\ demaps demode c 1 lab /\ (forall x, vector_of c 2 x <-> In x pts) /\
    max_log_approx y h 1 pts demode = Ok [Fin l0; Fin l1] /\
    forall argsort q r sizes llr_max fuel alpha, sorting argsort -> is_qr h 2 q r -> sizes <> [] -> Forall (fun s => (1 <= s)%nat) sizes -> (0 <= llr_max)%R -> alpha <> 0%R ->
      best_first_detector argsort fuel y h q r 2 c sizes demode llr_max <> Some (Ok [(alpha * l0)%R; (alpha * l1)%R]).
Proof. exact C47_max_log_refuted_proof. Qed.
Print Assumptions C47_max_log_refuted.

Theorem C47_demapper :
(* a modem's hard demodulation is a demapper in the sense of the theorems above: label l is its binary expansion *)
  forall (c : list C) (rg : bool) (md : modem) (v : R), modem_init c rg = Ok md -> NoDup c -> (2 <= length c)%nat ->
    exists lab : C -> list Z,
      demaps (fun x => match demodulate md x Hard v with Ok (inl b) => Ok b | Ok (inr _) => Err TypeError | Err e => Err e end) c (Nat.log2 (length c)) lab /\
      forall l j, (l < length c)%nat -> (j < num_bits md)%nat -> nth j (lab (nth l (points md) C0)) 0 = digit (num_bits md) l j.
Proof. exact C47_demapper_proof. Qed.
Print Assumptions C47_demapper.
Example C47_witness : is_qr hx 2 id2 hx /\ NoDup cx2 /\ Forall (fun s => (length cx2 ^ 2 <= s)%nat) [4; 4]%nat /\ (exists md, modem_init cx2 true = Ok md).
Proof.
  split; [exact hx_qr|]. split; [|split; [repeat constructor|eexists; reflexivity]]. constructor; [|constructor; [intros []|constructor]]. intros [H|[]]. injection H as H. lra.
Qed.

(* ---------------------------------------------------------------- C48 *)

Theorem C48_bit_level :
(* the new channel applied to the bits b is the old channel applied to the weighted sums of the groups of bits *)
  forall (H : list (list C)) (n : nat) (w : list C), columns n H -> (length w mod 2 = 0)%nat ->
    exists A, bit_lvl_repr H n w = Ok A /\ length A = length H /\ columns (n * length w) A /\
      forall b, length b = (n * length w)%nat ->
        map (fun row => apply_row row b) A =
        map (fun row => apply_row row (map (fun j => Csum (map (fun k => (nth k w C0 * nth (j * length w + k) b C0)%C) (seq 0 (length w)))) (seq 0 n))) H.
Proof. exact C48_bit_level_proof. Qed.
Print Assumptions C48_bit_level.

Theorem C48_odd :
forall (H : list (list C)) (n : nat) (w : list C), (length w mod 2 = 1)%nat -> bit_lvl_repr H n w = Err ValueError.
Proof. exact C48_odd_proof. Qed.
Print Assumptions C48_odd.
Example C48_witness : exists A, bit_lvl_repr hx 2 [C1; Ci] = Ok A /\ columns 4 A /\ length A = 2%nat.
Proof. eexists. split; [reflexivity|]. split; [repeat constructor|reflexivity]. Qed.

(* ---------------------------------------------------------------- C49 *)

Theorem C49_max_log :
(* LLR number k from the smallest squared distances among the listed points with bit k equal to 0 and to 1 *)
  forall (y : list C) (h : list (list C)) (v : R) (pts : list (list C)) demode (c : list C) (n b : nat) lab, columns n h -> length y = length h -> demaps demode c b lab -> pts <> [] -> Forall (vector_of c n) pts -> (0 < v)%R ->
    exists l, max_log_approx y h v pts demode = Ok l /\ length l = (n * b)%nat /\
      forall k, (k < n * b)%nat -> exists d0 d1, smallest y h pts (fun x => nth k (flat_map lab x) 2 = 0) d0 /\ smallest y h pts (fun x => nth k (flat_map lab x) 2 = 1) d1 /\
        (d0 <> None \/ d1 <> None) /\ nth k l NaN = max_log_value v d0 d1.
Proof. exact C49_max_log_proof. Qed.
Print Assumptions C49_max_log.

Theorem C49_zero_noise :
(* noise variance 0: the sign of infinity tells the closer hypothesis, NaN on a tie; no points at all: ValueError *)
  forall (y : list C) (h : list (list C)) (pts : list (list C)) demode (c : list C) (n b : nat) lab, columns n h -> length y = length h -> demaps demode c b lab -> Forall (vector_of c n) pts ->
    (pts <> [] -> exists l, max_log_approx y h 0 pts demode = Ok l /\ length l = (n * b)%nat /\
      forall k, (k < n * b)%nat -> exists d0 d1, smallest y h pts (fun x => nth k (flat_map lab x) 2 = 0) d0 /\ smallest y h pts (fun x => nth k (flat_map lab x) 2 = 1) d1 /\
        match d0, d1 with
        | Some a, Some e => ((a < e)%R -> nth k l NaN = PInf) /\ ((e < a)%R -> nth k l NaN = MInf) /\ (a = e -> nth k l NaN = NaN)
        | Some _, None => nth k l NaN = PInf | None, Some _ => nth k l NaN = MInf | None, None => False
        end) /\
    (pts = [] -> max_log_approx y h 0 pts demode = Err ValueError).
Proof. exact C49_zero_noise_proof. Qed.
Print Assumptions C49_zero_noise.

Theorem C49_sign :
(* two points, one antenna: Modem.demodulate's soft output is -2 times the value of max_log_approx *)
  forall (p0 p1 y : C) (v : R), (0 < v)%R -> p0 <> p1 ->
    exists md x, modem_init [p0; p1] true = Ok md /\
      max_log_approx [y] [[C1]] v [[p0]; [p1]] (fun s => match demodulate md s Hard v with Ok (inl b) => Ok b | Ok (inr _) => Err TypeError | Err e => Err e end) = Ok [Fin x] /\
      demodulate md [y] Soft v = Ok (inr [(-2 * x)%R]).
Proof. exact C49_sign_proof. Qed.
Print Assumptions C49_sign.
Example C49_witness : vector_of cx2 1 [C1] /\ C1 <> mkC (-1) 0 /\ columns 1 [[C1]].
Proof. split; [split; [reflexivity|repeat constructor; cbn; tauto]|]. split; [intros H; injection H as H; lra|repeat constructor]. Qed.

(* ---------------------------------------------------------------- C73 *)

Theorem C73_ml :
(* noise shorter than half the distance from the noise-free signal h x to the other noise-free signals: the maximum-likelihood
     detector, and K-best with K at least m^(n-1), return x; best-first search with stacks that never overflow gives its bits *)
  forall (y : list C) (h : list (list C)) (n : nat) (c x : list C), columns n h -> length y = length h -> vector_of c n x -> ml_margin y h c n x -> c <> [] ->
    mimo_ml y h n c = Ok x /\
    (forall argsort garbage q r (K : nat) (v : R) demode, sorting argsort -> length garbage = n -> is_qr h n q r -> (n <= length h)%nat -> (length c ^ (n - 1) <= K)%nat ->
       kbest argsort garbage y h q r n c K v Hard demode = Ok (KHard x)) /\
    (forall argsort q r (sizes : list nat) demode lab (llr_max : R), sorting argsort -> (2 <= length c)%nat -> demaps demode c (Nat.log2 (length c)) lab -> (0 <= llr_max)%R -> (2 <= n)%nat -> is_qr h n q r -> length h = n ->
       (n - 1 <= length sizes)%nat -> Forall (fun s => (length c ^ n <= s)%nat) sizes ->
       exists del, (0 <= del <= llr_max)%R /\ (NoDup c -> (0 < llr_max)%R -> (0 < del)%R) /\
         forall fuel, (length c ^ n <= fuel)%nat -> best_first_detector argsort fuel y h q r n c sizes demode llr_max = Some (Ok (map (fun b => if b =? 0 then del else (- del)%R) (flat_map lab x)))).
Proof. exact C73_ml_proof. Qed.
Print Assumptions C73_ml.

Theorem C73_any_width :
(* K-best of any width, even K = 1 (successive cancellation): enough that the noise is shorter than half of |h v| for every v
     whose last non-zero entry is a difference of two points *)
  forall argsort garbage (y : list C) (h q r : list (list C)) (n : nat) (c x : list C) (K : nat) (v : R) demode, sorting argsort -> length garbage = n ->
    is_qr h n q r -> (n <= length h)%nat -> length y = length h -> vector_of c n x -> successive_margin y h c n x -> c <> [] -> (1 <= K)%nat ->
    kbest argsort garbage y h q r n c K v Hard demode = Ok (KHard x).
Proof. exact C73_any_width_proof. Qed.
Print Assumptions C73_any_width.

Theorem C73_soft :
(* under the same margin every soft value of K-best has the sign of the sent bit: positive (possibly infinite) for 0, negative
     for 1 *)
  forall argsort garbage (y : list C) (h q r : list (list C)) (n b : nat) (c x : list C) (K : nat) (v : R) demode lab, sorting argsort -> length garbage = n ->
    is_qr h n q r -> (n <= length h)%nat -> length y = length h -> vector_of c n x -> successive_margin y h c n x -> c <> [] -> (1 <= K)%nat -> (0 < v)%R -> demaps demode c b lab ->
    exists l : list ext, kbest argsort garbage y h q r n c K v Soft demode = Ok (KSoft l) /\ length l = (n * b)%nat /\
      forall k, (k < n * b)%nat -> (nth k (flat_map lab x) 2 = 0 -> positive (nth k l NaN)) /\ (nth k (flat_map lab x) 2 = 1 -> negative (nth k l NaN)).
Proof. exact C73_soft_proof. Qed.
Print Assumptions C73_soft.

Theorem C73_best_first :
(* best-first search with stacks of any positive sizes, even 1 each: under that margin (square channel) it gives the bits of
     the sent vector, and no LLR is zero if the points are distinct *)
  forall argsort (y : list C) (h q r : list (list C)) (n : nat) (c x : list C) (sizes : list nat) demode lab (llr_max : R), sorting argsort ->
    is_qr h n q r -> length h = n -> length y = length h -> vector_of c n x -> successive_margin y h c n x -> (2 <= length c)%nat -> demaps demode c (Nat.log2 (length c)) lab -> (0 <= llr_max)%R ->
    (2 <= n)%nat -> (n - 1 <= length sizes)%nat -> Forall (fun s => (1 <= s)%nat) sizes ->
    exists del, (0 <= del <= llr_max)%R /\ (NoDup c -> (0 < llr_max)%R -> (0 < del)%R) /\
      forall fuel, (length c ^ n <= fuel)%nat -> best_first_detector argsort fuel y h q r n c sizes demode llr_max = Some (Ok (map (fun b => if b =? 0 then del else (- del)%R) (flat_map lab x))).
Proof. exact C73_best_first_proof. Qed.
Print Assumptions C73_best_first.

Theorem C73_margins :
(* the margin for any width implies the margin for the maximum-likelihood detector *)
  forall (y : list C) (h : list (list C)) (c : list C) (n : nat) (x : list C), columns n h -> vector_of c n x -> successive_margin y h c n x -> ml_margin y h c n x.
Proof. exact C73_margins_proof. Qed.
Print Assumptions C73_margins.
Example C73_witness : vector_of cx2 2 [C1; mkC (-1) 0] /\ sq_dist [mkC (1 / 4) 0; mkC (-3 / 4) 0] hx [C1; mkC (-1) 0] = (1 / 8)%R /\
  successive_margin [mkC (1 / 4) 0; mkC (-3 / 4) 0] hx cx2 2 [C1; mkC (-1) 0] /\ ml_margin [mkC (1 / 4) 0; mkC (-3 / 4) 0] hx cx2 2 [C1; mkC (-1) 0].
Proof.
  assert (V : vector_of cx2 2 [C1; mkC (-1) 0]) by (split; [reflexivity|repeat constructor; cbn; tauto]).
  assert (D : sq_dist [mkC (1 / 4) 0; mkC (-3 / 4) 0] hx [C1; mkC (-1) 0] = (1 / 8)%R). { unfold sq_dist, apply_row, hx. cbn [length seq map nth Rsum Csum fold_right]. unfold Cnorm2, Csub, Cadd, Cmul, C1, C0. cbn [re im]. field. }
  assert (M : successive_margin [mkC (1 / 4) 0; mkC (-3 / 4) 0] hx cx2 2 [C1; mkC (-1) 0]); [|split; [exact V|]; split; [exact D|]; split; [exact M|]; apply C73_margins; [repeat constructor|exact V|exact M]].
  intros v j a b Lv Hj Ha Hb Hab Vj Vl. rewrite D. destruct v as [|v0 [|v1 [|? ?]]]; try discriminate Lv. unfold energy_of, apply_row, hx. cbn [length seq map nth Rsum Csum fold_right].
  pose proof (Cnorm2_nonneg (C1 * v0 + (C1 * v1 + C0))%C) as N0. pose proof (Cnorm2_nonneg (C0 * v0 + (C1 * v1 + C0))%C) as N1. destruct j as [|[|j]]; [|cbn [nth] in Vj|lia].
  - specialize (Vl 1%nat ltac:(lia)). cbn [nth] in Vj, Vl. subst v0 v1. apply Rlt_le_trans with (Cnorm2 (C1 * (a - b) + (C1 * C0 + C0))%C); [|lra]. destruct Ha as [<-|[<-|[]]], Hb as [<-|[<-|[]]]; try congruence; unfold Cnorm2, Csub, Cadd, Cmul, C1, C0; cbn [re im]; lra.
  - subst v1. apply Rlt_le_trans with (Cnorm2 (C0 * v0 + (C1 * (a - b) + C0))%C); [|lra]. destruct Ha as [<-|[<-|[]]], Hb as [<-|[<-|[]]]; try congruence; unfold Cnorm2, Csub, Cadd, Cmul, C1, C0; cbn [re im]; lra.
Qed.

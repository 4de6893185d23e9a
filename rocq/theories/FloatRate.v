(* Proofs about the binary64 computations int(x / rate), int(x * rate) with rate = k/n. *)
From Verif Require Import Base UtilModel TrellisModel.

Lemma max_split e : (0 <= e -> Z.max e 0 = e /\ Z.max (- e) 0 = 0) /\ (e <= 0 -> Z.max e 0 = 0 /\ Z.max (- e) 0 = - e).
Proof. lia. Qed.

Ltac mx := repeat match goal with
  | H : context [Z.max ?a 0] |- _ => first [rewrite (Z.max_l a 0) in H by lia | rewrite (Z.max_r a 0) in H by lia]
  | |- context [Z.max ?a 0] => first [rewrite (Z.max_l a 0) by lia | rewrite (Z.max_r a 0) by lia]
  end.

(* the scaled quotient lies in [2^52, 2^53) *)
Lemma rnd64_exp_spec a b : 0 < a -> 0 < b -> let e := rnd64_exp a b in
  let num := a * 2 ^ Z.max (- e) 0 in let den := b * 2 ^ Z.max e 0 in
  0 < den /\ 2 ^ 52 * den <= num < 2 ^ 53 * den.
Proof.
  intros Ha Hb. cbn zeta.
  pose proof (Z.log2_spec a Ha) as [Ha1 Ha2]. pose proof (Z.log2_spec b Hb) as [Hb1 Hb2].
  pose proof (Z.log2_nonneg a) as Hla. pose proof (Z.log2_nonneg b) as Hlb.
  set (la := Z.log2 a) in *. set (lb := Z.log2 b) in *.
  (* generic: comparison of a/b with powers of two *)
  assert (Key : forall e, let num := a * 2 ^ Z.max (- e) 0 in let den := b * 2 ^ Z.max e 0 in
     forall f, 0 <= f -> b * 2 ^ Z.max (e + f) 0 <= a * 2 ^ Z.max (- (e + f)) 0 -> 2 ^ f * den <= num).
  { intros e num den f Hf H. unfold num, den. clear num den. destruct (Z.le_ge_cases 0 e) as [He|He].
    - mx. rewrite Z.pow_add_r in H by lia. lia.
    - destruct (Z.le_ge_cases 0 (e + f)) as [Hef|Hef]; mx.
      + replace f with ((e + f) + (- e)) by lia. rewrite Z.pow_add_r by lia. set (p := 2 ^ (- e)).
        assert (0 < p) by (apply Z.pow_pos_nonneg; lia). rewrite Z.pow_0_r in *. nia.
      + replace (- e) with (f + - (e + f)) by lia. rewrite Z.pow_add_r by lia. set (p := 2 ^ f) in *. set (p' := 2 ^ (- (e + f))) in *.
        assert (0 < p) by (apply Z.pow_pos_nonneg; lia). rewrite Z.pow_0_r in *. nia. }
  assert (Key2 : forall e, let num := a * 2 ^ Z.max (- e) 0 in let den := b * 2 ^ Z.max e 0 in
     forall f, 0 <= f -> a * 2 ^ Z.max (- (e + f)) 0 < b * 2 ^ Z.max (e + f) 0 -> num < 2 ^ f * den).
  { intros e num den f Hf H. unfold num, den. clear num den. destruct (Z.le_ge_cases 0 e) as [He|He].
    - mx. rewrite Z.pow_add_r in H by lia. lia.
    - destruct (Z.le_ge_cases 0 (e + f)) as [Hef|Hef]; mx.
      + replace f with ((e + f) + (- e)) by lia. rewrite Z.pow_add_r by lia. set (p := 2 ^ (- e)).
        assert (0 < p) by (apply Z.pow_pos_nonneg; lia). rewrite Z.pow_0_r in *. nia.
      + replace (- e) with (f + - (e + f)) by lia. rewrite Z.pow_add_r by lia. set (p := 2 ^ f) in *. set (p' := 2 ^ (- (e + f))) in *.
        assert (0 < p) by (apply Z.pow_pos_nonneg; lia). rewrite Z.pow_0_r in *. nia. }
  assert (Hp : forall z, 0 < 2 ^ Z.max z 0) by (intros z; apply Z.pow_pos_nonneg; lia).
  assert (HA : forall x, 0 <= x -> 2 ^ Z.succ x = 2 * 2 ^ x) by (intros x Hx; apply Z.pow_succ_r; exact Hx).
  rewrite HA in Ha2, Hb2 by lia.
  (* 2^(e0-1) < a/b < 2^(e0+1) *)
  assert (Hlow : b * 2 ^ Z.max (la - lb - 1) 0 <= a * 2 ^ Z.max (- (la - lb - 1)) 0).
  { destruct (Z.le_ge_cases 0 (la - lb - 1)).
    - rewrite (Z.max_l (la - lb - 1)) by lia. rewrite Z.max_r by lia. rewrite Z.pow_0_r.
      assert (E : 2 ^ la = 2 ^ lb * (2 * 2 ^ (la - lb - 1))) by (rewrite <- HA by lia; rewrite <- Z.pow_add_r by lia; f_equal; lia).
      assert (0 < 2 ^ (la - lb - 1)) by (apply Z.pow_pos_nonneg; lia). set (p := 2 ^ (la - lb - 1)) in *. set (q := 2 ^ lb) in *. nia.
    - rewrite (Z.max_r (la - lb - 1)) by lia. rewrite Z.max_l by lia. rewrite Z.pow_0_r.
      assert (E : 2 * 2 ^ lb = 2 ^ la * 2 ^ (- (la - lb - 1))) by (rewrite <- HA by lia; rewrite <- Z.pow_add_r by lia; f_equal; lia).
      set (p := 2 ^ (- (la - lb - 1))) in *. set (q := 2 ^ lb) in *. assert (0 < p) by (apply Z.pow_pos_nonneg; lia). nia. }
  assert (Hhigh : a * 2 ^ Z.max (- (la - lb + 1)) 0 < b * 2 ^ Z.max (la - lb + 1) 0).
  { destruct (Z.le_ge_cases 0 (la - lb + 1)).
    - rewrite (Z.max_l (la - lb + 1)) by lia. rewrite Z.max_r by lia. rewrite Z.pow_0_r.
      assert (E : 2 * 2 ^ la = 2 ^ lb * 2 ^ (la - lb + 1)) by (rewrite <- HA by lia; rewrite <- Z.pow_add_r by lia; f_equal; lia).
      set (p := 2 ^ (la - lb + 1)) in *. set (q := 2 ^ lb) in *. assert (0 < p) by (apply Z.pow_pos_nonneg; lia). nia.
    - rewrite (Z.max_r (la - lb + 1)) by lia. rewrite Z.max_l by lia. rewrite Z.pow_0_r.
      assert (E : 2 ^ lb = 2 ^ la * (2 * 2 ^ (- (la - lb + 1) - 0) )  \/ True) by (right; exact I). clear E.
      assert (E : 2 ^ lb = 2 * 2 ^ la * 2 ^ (- (la - lb + 1))) by (rewrite <- HA by lia; rewrite <- Z.pow_add_r by lia; f_equal; lia).
      set (p := 2 ^ (- (la - lb + 1))) in *. set (q := 2 ^ lb) in *. assert (0 < p) by (apply Z.pow_pos_nonneg; lia). nia. }
  unfold rnd64_exp. fold la lb. specialize (Key (rnd64_exp a b) 52). specialize (Key2 (rnd64_exp a b) 53).
  cbn zeta in Key, Key2. unfold rnd64_exp in Key, Key2. fold la lb in Key, Key2.
  destruct (Z.leb_spec (b * 2 ^ Z.max (la - lb) 0) (a * 2 ^ Z.max (- (la - lb)) 0)) as [Hc|Hc].
  - split; [apply Z.mul_pos_pos; [exact Hb|apply Hp]|]. split; [apply Key; [lia|]|apply Key2; [lia|]].
    + replace (la - lb - 52 + 52) with (la - lb) by lia. exact Hc.
    + replace (la - lb - 52 + 53) with (la - lb + 1) by lia. exact Hhigh.
  - split; [apply Z.mul_pos_pos; [exact Hb|apply Hp]|]. split; [apply Key; [lia|]|apply Key2; [lia|]].
    + replace (la - lb - 1 - 52 + 52) with (la - lb - 1) by lia. exact Hlow.
    + replace (la - lb - 1 - 52 + 53) with (la - lb) by lia. exact Hc.
Qed.

Lemma round_half_even_spec num den : 0 < den -> let m := round_half_even num den in
  2 * (m * den - num) <= den /\ 2 * (num - m * den) <= den /\
  (2 * (m * den - num) = den \/ 2 * (num - m * den) = den -> Z.even m = true).
Proof.
  intros Hd. cbn zeta. unfold round_half_even. pose proof (Z.div_mod num den ltac:(lia)) as E.
  pose proof (Z.mod_pos_bound num den Hd) as Hr. set (q := num / den) in *. set (r := num mod den) in *. clearbody q r. subst num.
  destruct (Z.ltb_spec (2 * r) den); [split; [nia|split; [nia|intros [H'|H']; nia]]|].
  destruct (Z.ltb_spec den (2 * r)); [split; [nia|split; [nia|intros [H'|H']; nia]]|].
  destruct (Z.even q) eqn:Eq.
  - split; [nia|split; [nia|intros _; exact Eq]].
  - split; [nia|split; [nia|intros _; rewrite Z.even_add, Eq; reflexivity]].
Qed.

(* the nearest double of a rational just below an integer N is at least N *)
Lemma rnd64_ge a b N : 0 < a -> 0 < b -> 0 <= N -> a < 2 ^ 52 * b -> b * N * (2 ^ 54 - 1) <= a * 2 ^ 54 ->
  N <= int_of_float (rnd64 a b).
Proof.
  intros Ha Hb HN Hlt H. unfold rnd64, int_of_float. pose proof (rnd64_exp_spec a b Ha Hb) as Hs. cbn zeta in Hs.
  set (e := rnd64_exp a b) in *. destruct Hs as (Hden & Hlo & Hhi).
  assert (He : e < 0).
  { destruct (Z.lt_ge_cases e 0) as [|He]; [assumption|exfalso]. rewrite (Z.max_r (- e)) in Hlo by lia. rewrite Z.max_l in Hlo by lia.
    assert (1 <= 2 ^ e) by (apply (Z.pow_le_mono_r 2 0 e); lia). nia. }
  rewrite (Z.max_r e) in * by lia. rewrite (Z.max_l (- e)) in * by lia. rewrite Z.pow_0_r, !Z.mul_1_r in *.
  set (p := 2 ^ (- e)) in *. assert (Hp : 0 < p) by (apply Z.pow_pos_nonneg; lia).
  assert (Hpe : Z.even p = true).
  { unfold p. replace (- e) with (Z.succ (- e - 1)) by lia. rewrite Z.pow_succ_r by lia. apply Z.even_mul. }
  pose proof (round_half_even_spec (a * p) b Hden) as Hm. cbn zeta in Hm. set (m := round_half_even (a * p) b) in *. clearbody m.
  destruct Hm as (Hm1 & Hm2 & Hm3).
  apply Z.div_le_lower_bound; [exact Hp|].
  destruct (Z.lt_ge_cases m (p * N)) as [Hcon|]; [exfalso|assumption].
  (* a p >= b N p - b N p / 2^54 *)
  assert (H1 : b * (N * p) * (2 ^ 54 - 1) <= a * p * 2 ^ 54) by nia.
  assert (HNp : N * p <= 2 ^ 53).
  { destruct (Z.le_gt_cases (N * p) (2 ^ 53)) as [|Hg]; [assumption|exfalso].
    assert (b * (2 ^ 53 + 1) * (2 ^ 54 - 1) <= a * p * 2 ^ 54) by nia. nia. }
  set (x := a * p) in *. set (y := N * p) in *. replace (p * N) with y in Hcon by (unfold y; ring).
  assert (Hy1 : b * y - x <= b * y / 2 ^ 54 \/ True) by (right; exact I).
  (* 2 (b y - x) <= b *)
  assert (H2 : 2 * (b * y - x) <= b) by nia.
  assert (Hm4 : m <= y - 1) by lia.
  (* m is at distance >= b/2 below, so m = y - 1 and a tie *)
  assert (Hmy : m = y - 1) by nia.
  assert (Htie : 2 * (x - m * b) = b) by nia.
  specialize (Hm3 (or_intror Htie)). rewrite Hmy in Hm3. rewrite Z.even_sub in Hm3. unfold y in Hm3. rewrite Z.even_mul, Hpe, orb_true_r in Hm3. discriminate Hm3.
Qed.

(* the nearest double of a rational below N + 1/2 is below N + 1 *)
Lemma rnd64_lt a b N : 0 < a -> 0 < b -> 0 <= N -> N < 2 ^ 50 -> 2 * a <= (2 * N + 1) * b ->
  int_of_float (rnd64 a b) <= N.
Proof.
  intros Ha Hb HN HN50 H. unfold rnd64, int_of_float. pose proof (rnd64_exp_spec a b Ha Hb) as Hs. cbn zeta in Hs.
  set (e := rnd64_exp a b) in *. destruct Hs as (Hden & Hlo & Hhi).
  assert (He : e <= -1).
  { destruct (Z.lt_ge_cases e 0) as [|He]; [lia|exfalso]. rewrite (Z.max_r (- e)) in Hlo by lia. rewrite Z.max_l in Hlo by lia.
    assert (1 <= 2 ^ e) by (apply (Z.pow_le_mono_r 2 0 e); lia). nia. }
  rewrite (Z.max_r e) in * by lia. rewrite (Z.max_l (- e)) in * by lia. rewrite Z.pow_0_r, !Z.mul_1_r in *.
  set (p := 2 ^ (- e)) in *. assert (Hp : 2 <= p) by (apply (Z.pow_le_mono_r 2 1 (- e)); lia).
  pose proof (round_half_even_spec (a * p) b Hden) as Hm. cbn zeta in Hm. set (m := round_half_even (a * p) b) in *. clearbody m.
  destruct Hm as (Hm1 & Hm2 & _).
  assert (m / p < N + 1); [|lia]. apply Z.div_lt_upper_bound; [lia|].
  (* 2 m b <= 2 a p + b <= (2N+1) b p + b < 2 (N+1) p b *)
  assert (Hx : 2 * (m * b) <= (2 * N + 1) * b * p + b) by nia.
  assert (Hx2 : 2 * m <= (2 * N + 1) * p + 1) by nia. nia.
Qed.

(* ------------------------------------------------------------------ the code rate *)

(* The double nearest to k/n exceeds k/n by a factor of at most 1 / (1 - 2^-54).  True for rates 1/n,
   2/n, 3/4, 5/6 ... and decidable for every rate; false e.g. for 7/12 *)
Definition rate_ok (k n : nat) : bool :=
  let '(m, e) := rnd64 (Z.of_nat k) (Z.of_nat n) in
  (e <? 0) && (m * Z.of_nat n * (2 ^ 54 - 1) <=? Z.of_nat k * 2 ^ (- e) * 2 ^ 54).

Lemma rate_m k n : (1 <= k)%nat -> (1 <= n)%nat -> let '(m, e) := rnd64 (Z.of_nat k) (Z.of_nat n) in
  2 ^ 52 <= m /\ (e < 0 -> 2 * (Z.of_nat k * 2 ^ (- e)) <= (2 * m + 1) * Z.of_nat n).
Proof.
  intros Hk Hn. unfold rnd64. pose proof (rnd64_exp_spec (Z.of_nat k) (Z.of_nat n) ltac:(lia) ltac:(lia)) as Hs. cbn zeta in Hs.
  set (e := rnd64_exp _ _) in *. destruct Hs as (Hden & Hlo & Hhi).
  pose proof (round_half_even_spec (Z.of_nat k * 2 ^ Z.max (- e) 0) (Z.of_nat n * 2 ^ Z.max e 0) Hden) as Hm. cbn zeta in Hm.
  set (m := round_half_even _ _) in *. clearbody m. destruct Hm as (Hm1 & Hm2 & _). split.
  - destruct (Z.le_gt_cases (2 ^ 52) m); [assumption|exfalso]. set (dd := Z.of_nat n * 2 ^ Z.max e 0) in *. nia.
  - intros He. rewrite (Z.max_r e) in * by lia. rewrite (Z.max_l (- e)) in * by lia. rewrite Z.pow_0_r, Z.mul_1_r in *. nia.
Qed.

Lemma int_div_rate_ge k n q x : (1 <= k)%nat -> (1 <= n)%nat -> rate_ok k n = true ->
  Z.of_nat k * q <= x -> 0 <= q -> x * Z.of_nat n < 2 ^ 49 ->
  Z.of_nat n * q <= int_div_rate x k n.
Proof.
  intros Hk Hn Hr Hx Hq Hb. unfold int_div_rate. unfold rate_ok in Hr. pose proof (rate_m k n Hk Hn) as Hm.
  destruct (rnd64 (Z.of_nat k) (Z.of_nat n)) as [m e]. apply andb_true_iff in Hr. destruct Hr as [He Hr].
  apply Z.ltb_lt in He. apply Z.leb_le in Hr. destruct Hm as [Hm1 Hm2]. specialize (Hm2 He).
  destruct (Z.leb_spec x 0) as [Hx0|Hx0]; [assert (q = 0) by nia; subst q; lia|].
  rewrite (Z.max_r e) by lia. rewrite (Z.max_l (- e)) by lia. rewrite Z.pow_0_r, Z.mul_1_r.
  set (p := 2 ^ (- e)) in *. assert (Hp : 0 < p) by (apply Z.pow_pos_nonneg; lia).
  apply rnd64_ge; try lia; try nia.
Qed.

Lemma int_div_rate_le k n q : (1 <= k)%nat -> (1 <= n)%nat -> rate_ok k n = true ->
  0 <= q -> Z.of_nat k * q * Z.of_nat n < 2 ^ 49 -> int_div_rate (Z.of_nat k * q) k n <= Z.of_nat n * q.
Proof.
  intros Hk Hn Hr Hq Hb. unfold int_div_rate. unfold rate_ok in Hr. pose proof (rate_m k n Hk Hn) as Hm.
  destruct (rnd64 (Z.of_nat k) (Z.of_nat n)) as [m e]. apply andb_true_iff in Hr. destruct Hr as [He Hr].
  apply Z.ltb_lt in He. apply Z.leb_le in Hr. destruct Hm as [Hm1 Hm2]. specialize (Hm2 He).
  destruct (Z.leb_spec (Z.of_nat k * q) 0) as [Hx0|Hx0]; [nia|].
  rewrite (Z.max_r e) by lia. rewrite (Z.max_l (- e)) by lia. rewrite Z.pow_0_r, Z.mul_1_r.
  set (p := 2 ^ (- e)) in *. assert (Hp : 0 < p) by (apply Z.pow_pos_nonneg; lia).
  apply rnd64_lt; try lia; try nia.
Qed.

(* int((k q) / rate) = n q *)
Lemma int_div_rate_exact k n q : (1 <= k)%nat -> (1 <= n)%nat -> rate_ok k n = true -> 0 <= q -> Z.of_nat k * q * Z.of_nat n < 2 ^ 49 ->
  int_div_rate (Z.of_nat k * q) k n = Z.of_nat n * q.
Proof.
  intros Hk Hn Hr Hq Hb. apply Z.le_antisymm; [apply int_div_rate_le; assumption|]. apply int_div_rate_ge; try assumption; lia.
Qed.

(* the nearest double of a rational that is below N + 1 by a relative 2^-51 is below N + 1 *)
Lemma rnd64_lt_rel a b N : 0 < a -> 0 < b -> 0 <= N -> N < 2 ^ 50 -> a * 2 ^ 51 <= (N + 1) * b * (2 ^ 51 - 1) ->
  int_of_float (rnd64 a b) <= N.
Proof.
  intros Ha Hb HN HN50 H. unfold rnd64, int_of_float. pose proof (rnd64_exp_spec a b Ha Hb) as Hs. cbn zeta in Hs.
  set (e := rnd64_exp a b) in *. destruct Hs as (Hden & Hlo & Hhi).
  assert (He : e <= -1).
  { destruct (Z.lt_ge_cases e 0) as [|He]; [lia|exfalso]. rewrite (Z.max_r (- e)) in Hlo by lia. rewrite Z.max_l in Hlo by lia.
    assert (1 <= 2 ^ e) by (apply (Z.pow_le_mono_r 2 0 e); lia). nia. }
  rewrite (Z.max_r e) in * by lia. rewrite (Z.max_l (- e)) in * by lia. rewrite Z.pow_0_r, !Z.mul_1_r in *.
  set (p := 2 ^ (- e)) in *. assert (Hp : 2 <= p) by (apply (Z.pow_le_mono_r 2 1 (- e)); lia).
  pose proof (round_half_even_spec (a * p) b Hden) as Hm. cbn zeta in Hm. set (m := round_half_even (a * p) b) in *. clearbody m p.
  destruct Hm as (Hm1 & Hm2 & _). clear Hhi e He.
  assert (m / p < N + 1); [|lia]. apply Z.div_lt_upper_bound; [lia|].
  set (y := p * (N + 1)) in *. assert (Hy : a * p * 2 ^ 51 <= y * b * (2 ^ 51 - 1)). { unfold y. apply (Z.mul_le_mono_nonneg_r _ _ p) in H; [|lia]. lia. }
  assert (Y52 : 2 ^ 52 < y). { apply Z.nle_gt. intros F. assert (y * b <= 2 ^ 52 * b) by nia. nia. }
  clearbody y. set (x := a * p) in *. clearbody x. clear H Ha. apply Z.nle_gt. intros F. assert (y * b <= m * b) by nia. nia.
Qed.
(* int(x / rate) is the integer part of x n / k *)
Lemma int_div_rate_floor k n x : (1 <= k)%nat -> (1 <= n)%nat -> rate_ok k n = true -> 0 <= x -> x * Z.of_nat n + Z.of_nat k < 2 ^ 49 ->
  int_div_rate x k n = x * Z.of_nat n / Z.of_nat k.
Proof.
  intros Hk Hn Hr Hx Hb. destruct (Z.eq_dec x 0) as [->|NZ]; [reflexivity|]. unfold int_div_rate. unfold rate_ok in Hr. pose proof (rate_m k n Hk Hn) as Hm.
  destruct (rnd64 (Z.of_nat k) (Z.of_nat n)) as [m e]. apply andb_true_iff in Hr. destruct Hr as [He Hr].
  apply Z.ltb_lt in He. apply Z.leb_le in Hr. destruct Hm as [Hm1 Hm2]. specialize (Hm2 He).
  destruct (Z.leb_spec x 0) as [Hx0|Hx0]; [lia|].
  rewrite (Z.max_r e) by lia. rewrite (Z.max_l (- e)) by lia. rewrite Z.pow_0_r, Z.mul_1_r.
  set (p := 2 ^ (- e)) in *. assert (Hp : 0 < p) by (apply Z.pow_pos_nonneg; lia).
  assert (Hk' : 1 <= Z.of_nat k) by lia. assert (Hn' : 1 <= Z.of_nat n) by lia. set (K := Z.of_nat k) in *. set (NN := Z.of_nat n) in *. clearbody K NN p. clear Hk Hn He.
  pose proof (Z.div_mod (x * NN) K ltac:(lia)) as DM. pose proof (Z.mod_pos_bound (x * NN) K ltac:(lia)) as DB. set (N := x * NN / K) in *. assert (HN : 0 <= N) by (apply Z.div_pos; nia). clearbody N. set (r := (x * NN) mod K) in *. clearbody r.
  assert (HKN : K * N <= x * NN) by lia. assert (HN49 : N < 2 ^ 49) by nia.
  apply Z.le_antisymm.
  - apply rnd64_lt_rel; try lia; try nia.
  - apply rnd64_ge; try lia; try nia.
Qed.

(* The double nearest to k/n is at least (1 - 2^-54) k/n: then int(len(coded) * rate) is exact.  False e.g. for
   7/10: int(90 * 0.7) = 62 *)
Definition mul_ok (k n : nat) : bool :=
  let '(m, e) := rnd64 (Z.of_nat k) (Z.of_nat n) in
  (e <? 0) && (Z.of_nat k * 2 ^ (- e) * (2 ^ 54 - 1) <=? m * Z.of_nat n * 2 ^ 54).

Lemma rate_m_up k n : (1 <= k)%nat -> (1 <= n)%nat -> let '(m, e) := rnd64 (Z.of_nat k) (Z.of_nat n) in
  e < 0 -> 2 * (m * Z.of_nat n) <= 2 * (Z.of_nat k * 2 ^ (- e)) + Z.of_nat n.
Proof.
  intros Hk Hn. unfold rnd64. pose proof (rnd64_exp_spec (Z.of_nat k) (Z.of_nat n) ltac:(lia) ltac:(lia)) as Hs. cbn zeta in Hs.
  set (e := rnd64_exp _ _) in *. destruct Hs as (Hden & Hlo & Hhi).
  pose proof (round_half_even_spec (Z.of_nat k * 2 ^ Z.max (- e) 0) (Z.of_nat n * 2 ^ Z.max e 0) Hden) as Hm. cbn zeta in Hm.
  set (m := round_half_even _ _) in *. clearbody m. destruct Hm as (Hm1 & Hm2 & _).
  intros He. rewrite (Z.max_r e) in * by lia. rewrite (Z.max_l (- e)) in * by lia. rewrite Z.pow_0_r, Z.mul_1_r in *. nia.
Qed.

(* int((n B) * rate) = k B *)
Lemma int_mul_rate_exact k n B : (1 <= k)%nat -> (1 <= n)%nat -> mul_ok k n = true -> 0 <= B -> Z.of_nat k * B < 2 ^ 49 ->
  int_mul_rate (Z.of_nat n * B) k n = Z.of_nat k * B.
Proof.
  intros Hk Hn Hr HB Hb. unfold int_mul_rate. unfold mul_ok in Hr. pose proof (rate_m k n Hk Hn) as Hm. pose proof (rate_m_up k n Hk Hn) as Hu.
  destruct (rnd64 (Z.of_nat k) (Z.of_nat n)) as [m e]. apply andb_true_iff in Hr. destruct Hr as [He Hr].
  apply Z.ltb_lt in He. apply Z.leb_le in Hr. destruct Hm as [Hm1 Hm2]. specialize (Hm2 He). specialize (Hu He).
  destruct (Z.leb_spec (Z.of_nat n * B) 0) as [Hx0|Hx0]; [nia|].
  rewrite (Z.max_r e) by lia. rewrite (Z.max_l (- e)) by lia. rewrite Z.pow_0_r, Z.mul_1_r.
  set (p := 2 ^ (- e)) in *. assert (Hp : 0 < p) by (apply Z.pow_pos_nonneg; lia). assert (0 < B) by nia.
  assert (Hup : 2 * (Z.of_nat n * B * m) <= (2 * (Z.of_nat k * B) + 1) * p).
  { (* n <= p k / 2^51 roughly: m n >= 2^52 n *)
    assert (Hnp : 2 ^ 52 * Z.of_nat n <= 2 * (Z.of_nat k * p)) by nia.
    assert (Z.of_nat n * B <= p); [|nia].
    assert (2 ^ 52 * (Z.of_nat n * B) <= 2 * (Z.of_nat k * B * p)) by nia.
    assert (2 * (Z.of_nat k * B * p) <= 2 * (2 ^ 49 * p)) by nia. lia. }
  apply Z.le_antisymm; [apply rnd64_lt|apply rnd64_ge]; try lia; try nia.
Qed.

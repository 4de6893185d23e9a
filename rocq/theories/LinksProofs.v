(* Lemmas about the link model. *)
From Verif Require Import Base LinksModel LinksSpec.

(* ------------------------------------------------------------------ chunk size *)
Section Chunk.
Variables b p q : Z.
Hypothesis Hb : 0 < b.
Hypothesis Hp : 0 < p.
Hypothesis Hq : 0 < q.
Lemma divider_facts : 0 < divider b p q /\ forall c, (p * b | c * q) <-> (divider b p q | c).
Proof.
  unfold divider. set (g := Z.gcd q (b * p)). assert (Hbp : 0 < b * p) by nia.
  assert (Hg : 0 < g). { assert (0 <= g) by apply Z.gcd_nonneg. assert (g <> 0); [|lia]. intros E. apply Z.gcd_eq_0 in E. lia. }
  destruct (Z.gcd_divide_l q (b * p)) as [q' Eq]. destruct (Z.gcd_divide_r q (b * p)) as [d Ed]. fold g in Eq, Ed.
  assert (Hd : b * p / g = d) by (rewrite Ed; apply Z.div_mul; lia). rewrite Hd.
  assert (Hd0 : 0 < d) by nia. split; [exact Hd0|]. intros c. rewrite (Z.mul_comm p b), Ed, Eq.
  assert (Hc : Z.gcd q' d = 1).
  { assert (E : Z.gcd (q' * g) (d * g) = g) by (rewrite <- Eq, <- Ed; reflexivity). rewrite Z.gcd_mul_mono_r_nonneg in E by lia. nia. }
  split.
  - intros [x Ex]. assert (E : c * q' = x * d) by nia. apply (Z.gauss _ q'); [exists x; lia|rewrite Z.gcd_comm; exact Hc].
  - intros [x ->]. exists (x * q'). ring.
Qed.
Lemma round_chunk_facts s : let d := divider b p q in let c := round_chunk b p q s in
  0 < c /\ (d | c) /\ (d <= s -> s - d < c <= s) /\ (s < d -> c = d).
Proof.
  destruct divider_facts as [Hd _]. cbn zeta. unfold round_chunk. set (d := divider b p q) in *.
  pose proof (Z.div_mod s d ltac:(lia)) as E. pose proof (Z.mod_pos_bound s d Hd) as Hm. set (t := s / d) in *. set (r := s mod d) in *.
  destruct (Z.le_gt_cases (t * d) d) as [H|H].
  - rewrite Z.max_l by exact H. split; [exact Hd|]. split; [apply Z.divide_refl|]. split; [|reflexivity]. intros Hs. assert (t = 1) by nia. nia.
  - rewrite Z.max_r by lia. split; [nia|]. split; [exists t; reflexivity|]. split; [intros _; nia|]. intros Hs. exfalso. assert (t < 1) by nia. nia.
Qed.
End Chunk.

(* ------------------------------------------------------------------ limit_denominator *)
Section Limit.
Variables maxd num den : Z.
Hypothesis Hmax : 1 <= maxd <= 150.
Hypothesis Hden : maxd < den.
Hypothesis Hg : Z.gcd num den = 1.
Definition lim_inv (p0 q0 p1 q1 n d : Z) : Prop :=
  num = p1 * n + p0 * d /\ den = q1 * n + q0 * d /\ (p1 * q0 - p0 * q1 = 1 \/ p1 * q0 - p0 * q1 = -1) /\ 0 < n /\ 0 <= d /\ 0 <= q0 <= maxd /\ 0 <= q1 <= maxd.
Lemma lim_pos : forall p0 q0 p1 q1 n d, lim_inv p0 q0 p1 q1 n d -> 0 < d.
Proof.
  intros p0 q0 p1 q1 n d (E1 & E2 & _ & Hn & Hd & _ & Hq). destruct (Z.eq_dec d 0) as [->|]; [|lia]. exfalso.
  assert (D : (n | Z.gcd num den)) by (apply Z.gcd_greatest; [exists p1; lia|exists q1; lia]). rewrite Hg in D. apply Z.divide_1_r_nonneg in D; nia.
Qed.
Lemma lim_step : forall p0 q0 p1 q1 n d, lim_inv p0 q0 p1 q1 n d -> q0 + n / d * q1 <= maxd -> lim_inv p1 q1 (p0 + n / d * p1) (q0 + n / d * q1) d (n - n / d * d) /\ n - n / d * d < d.
Proof.
  intros p0 q0 p1 q1 n d I H. pose proof (lim_pos _ _ _ _ _ _ I) as Hd. destruct I as (E1 & E2 & ED & Hn & _ & H0 & H1).
  assert (Ha : 0 <= n / d) by (apply Z.div_pos; lia). pose proof (Z.div_mod n d ltac:(lia)) as E. pose proof (Z.mod_pos_bound n d Hd) as B. set (a := n / d) in *. split; [|lia].
  unfold lim_inv. split; [rewrite E1; ring|]. split; [rewrite E2; ring|]. split; [destruct ED as [ED|ED]; [right|left]; nia|]. repeat split; nia.
Qed.
Definition lim_stop (r : Z * Z * Z * Z) : Prop :=
  let '(p0, q0, p1, q1) := r in exists n d, lim_inv p0 q0 p1 q1 n d /\ 1 <= q1 /\ maxd < q0 + n / d * q1.
Lemma lim_run : forall f p0 q0 p1 q1 n d, lim_inv p0 q0 p1 q1 n d -> 1 <= q0 -> 1 <= q1 -> d < n -> maxd - q1 < Z.of_nat f -> lim_stop (limit_loop f maxd p0 q0 p1 q1 n d).
Proof.
  induction f as [|f IH]; intros p0 q0 p1 q1 n d I H0 H1 Hdn Hf; [exfalso; destruct I as (_ & _ & _ & _ & _ & _ & ?); lia|]. cbn [limit_loop]. cbv zeta.
  destruct (maxd <? q0 + n / d * q1) eqn:C.
  - apply Z.ltb_lt in C. exists n, d. auto.
  - apply Z.ltb_ge in C. pose proof (lim_pos _ _ _ _ _ _ I) as Hd. assert (A : 1 <= n / d) by (apply Z.div_le_lower_bound; lia). destruct (lim_step _ _ _ _ _ _ I C) as [I' L]. apply IH; [exact I'|exact H1|nia|exact L|nia].
Qed.
Lemma lim_loop : lim_stop (limit_loop 200 maxd 0 1 1 0 num den) \/ num < 0.
Proof.
  destruct (Z.lt_ge_cases num 0) as [N|N]; [right; exact N|left].
  destruct (Z.eq_dec num 0) as [Z0|NZ]. { exfalso. rewrite Z0 in Hg. rewrite Z.gcd_0_l in Hg. lia. }
  assert (I : lim_inv 0 1 1 0 num den) by (unfold lim_inv; repeat split; lia).
  assert (exists f, 200%nat = S (S f) /\ Z.of_nat f = 198) as (f & Ef & Hf) by (exists 198%nat; split; reflexivity). rewrite Ef. clear Ef. cbn [limit_loop]. cbv zeta. assert (maxd <? 1 + num / den * 0 = false) as -> by (apply Z.ltb_ge; lia).
  destruct (lim_step _ _ _ _ _ _ I ltac:(lia)) as [I1 L1]. set (a := num / den) in *. replace (0 + a * 1) with a in * by ring. replace (1 + a * 0) with 1 in * by ring. set (r := num - a * den) in *.
  destruct (maxd <? 0 + den / r * 1) eqn:C; [apply Z.ltb_lt in C; exists den, r; split; [exact I1|lia]|]. apply Z.ltb_ge in C. pose proof (lim_pos _ _ _ _ _ _ I1) as Hr. assert (A : 1 <= den / r) by (apply Z.div_le_lower_bound; lia).
  destruct (lim_step _ _ _ _ _ _ I1 C) as [I2 L2]. apply lim_run; [exact I2|lia|lia|exact L2|lia].
Qed.
Lemma det_coprime : forall a b c d, a * d - b * c = 1 \/ a * d - b * c = -1 -> Z.gcd a c = 1.
Proof.
  intros a b c d H. assert (D : (Z.gcd a c | 1)).
  { destruct (Z.gcd_divide_l a c) as [x Ex], (Z.gcd_divide_r a c) as [y Ey]. set (g := Z.gcd a c) in *. destruct H as [H|H]; [exists (x * d - b * y)|exists (b * y - x * d)]; nia. }
  apply Z.divide_1_r_nonneg in D; [exact D|apply Z.gcd_nonneg].
Qed.
Lemma lim_arith : forall A B b q d m v N, 1 <= b -> 1 <= q -> 0 < d -> 0 < m -> 1 <= v <= N -> N < b + q -> v = A * b + B * q ->
  d * v <= Z.abs (B * d - A * m) * q \/ m * v <= Z.abs (B * d - A * m) * b.
Proof.
  clear. intros A B b q d m v N Hb Hq Hd Hm Hv HN EV. destruct (Z.le_gt_cases A 0) as [HA|HA].
  - left. assert (A * b <= 0) by (apply Z.mul_nonpos_nonneg; lia). assert (A * m <= 0) by (apply Z.mul_nonpos_nonneg; lia).
    assert (HB : 1 <= B). { destruct (Z.le_gt_cases B 0) as [L|L]; [|lia]. assert (B * q <= 0) by (apply Z.mul_nonpos_nonneg; lia). lia. }
    assert (0 <= B * d) by (apply Z.mul_nonneg_nonneg; lia). rewrite Z.abs_eq by lia. transitivity (d * (B * q)); [apply Z.mul_le_mono_nonneg_l; lia|].
    replace (d * (B * q)) with ((B * d) * q) by ring. apply Z.mul_le_mono_nonneg_r; lia.
  - right. assert (HB : B <= 0). { destruct (Z.le_gt_cases B 0) as [L|L]; [lia|]. assert (1 * q <= B * q) by (apply Z.mul_le_mono_nonneg_r; lia). assert (1 * b <= A * b) by (apply Z.mul_le_mono_nonneg_r; lia). lia. }
    assert (B * q <= 0) by (apply Z.mul_nonpos_nonneg; lia). assert (B * d <= 0) by (apply Z.mul_nonpos_nonneg; lia). assert (0 <= A * m) by (apply Z.mul_nonneg_nonneg; lia). rewrite Z.abs_neq by lia.
    transitivity (m * (A * b)); [apply Z.mul_le_mono_nonneg_l; lia|]. replace (m * (A * b)) with ((A * m) * b) by ring. apply Z.mul_le_mono_nonneg_r; lia.
Qed.
Lemma lim_trans : forall d b m q v t, 1 <= b -> 0 <= v -> 0 <= q -> d * b <= m * q -> m * v <= t * b -> d * v <= t * q.
Proof.
  clear. intros d b m q v t Hb Hv Hq H1 H2. apply (Zmult_lt_0_le_reg_r _ _ b); [lia|]. transitivity (m * q * v).
  - replace (d * v * b) with (d * b * v) by ring. apply Z.mul_le_mono_nonneg_r; lia.
  - replace (m * q * v) with (m * v * q) by ring. replace (t * q * b) with (t * b * q) by ring. apply Z.mul_le_mono_nonneg_r; lia.
Qed.
Lemma lim_best : 0 <= num -> let '(r, s) := limit_denominator maxd num den in
  Z.gcd r s = 1 /\ 1 <= s <= maxd /\ forall u v, 1 <= v <= maxd -> Z.abs (r * den - num * s) * v <= Z.abs (u * den - num * v) * s.
Proof.
  intros N. unfold limit_denominator. assert (den <=? maxd = false) as -> by (apply Z.leb_gt; lia). destruct lim_loop as [L|L]; [|lia].
  destruct (limit_loop 200 maxd 0 1 1 0 num den) as [[[p0 q0] p1] q1]. destruct L as (n & d & I & H1 & Hs). pose proof (lim_pos _ _ _ _ _ _ I) as Hd. destruct I as (E1 & E2 & ED & Hn & _ & B0 & B1). cbv zeta.
  pose proof (Z.div_mod (maxd - q0) q1 ltac:(lia)) as EK. pose proof (Z.mod_pos_bound (maxd - q0) q1 ltac:(lia)) as BK. assert (Hk : 0 <= (maxd - q0) / q1) by (apply Z.div_pos; lia). set (k := (maxd - q0) / q1) in *.
  pose proof (Z.div_mod n d ltac:(lia)) as EA. pose proof (Z.mod_pos_bound n d Hd) as BA. set (a := n / d) in *.
  assert (Hka : k + 1 <= a) by nia. set (m := n - k * d). assert (Hm : d <= m) by (unfold m; nia). set (b1n := p0 + k * p1). set (b1d := q0 + k * q1).
  assert (exists ep, (ep = 1 \/ ep = -1) /\ p1 * q0 - p0 * q1 = ep) as (ep & Hep & EP) by (destruct ED as [ED|ED]; eexists; (split; [|exact ED]); auto).
  assert (F2 : p1 * den - num * q1 = ep * d) by (rewrite <- EP, E1, E2; ring). assert (F1 : b1n * den - num * b1d = - ep * m) by (unfold b1n, b1d, m; rewrite <- EP, E1, E2; ring).
  assert (DT : p1 * b1d - b1n * q1 = ep) by (unfold b1n, b1d; rewrite <- EP; ring).
  assert (Hb1 : 1 <= b1d <= maxd). { unfold b1d. split; [|lia]. assert (KQ : 0 <= k * q1) by (apply Z.mul_nonneg_nonneg; lia). destruct (Z.eq_dec q0 0) as [Q0|Q0]; [|lia]. assert (Q1 : q1 = 1) by (apply Z.divide_1_r_nonneg; [lia|]; rewrite Q0 in EP; destruct Hep as [H|H]; rewrite H in EP; [exists (- p0)|exists p0]; lia). rewrite Q1 in *. lia. }
  assert (Hsum : maxd < b1d + q1) by (unfold b1d; lia).
  assert (A1 : Z.abs (p1 * den - num * q1) = d) by (rewrite F2; destruct Hep as [->| ->]; lia). assert (A2 : Z.abs (b1n * den - num * b1d) = m) by (rewrite F1; destruct Hep as [->| ->]; lia). rewrite A1, A2.
  assert (K : forall u v, 1 <= v <= maxd -> d * v <= Z.abs (u * den - num * v) * q1 \/ m * v <= Z.abs (u * den - num * v) * b1d).
  { intros u v Hv. set (A := ep * (p1 * v - u * q1)). set (B := ep * (u * b1d - b1n * v)).
    assert (EP2 : ep * ep = 1) by (destruct Hep as [->| ->]; reflexivity).
    assert (EV : v = A * b1d + B * q1) by (unfold A, B; transitivity (ep * v * (p1 * b1d - b1n * q1)); [rewrite DT; rewrite (Z.mul_comm ep), <- Z.mul_assoc, EP2; ring|ring]).
    assert (EU : u = A * b1n + B * p1) by (unfold A, B; transitivity (ep * u * (p1 * b1d - b1n * q1)); [rewrite DT; rewrite (Z.mul_comm ep), <- Z.mul_assoc, EP2; ring|ring]).
    assert (ET : u * den - num * v = ep * (B * d - A * m)). { transitivity (A * (b1n * den - num * b1d) + B * (p1 * den - num * q1)); [rewrite EU at 1; rewrite EV at 1; ring|rewrite F1, F2; ring]. }
    assert (EAb : Z.abs (u * den - num * v) = Z.abs (B * d - A * m)) by (rewrite ET; destruct Hep as [->| ->]; lia). rewrite EAb. clearbody A B. clear EU ET EAb.
    apply (lim_arith A B b1d q1 d m v maxd); lia || exact EV. }
  destruct (d * b1d <=? m * q1) eqn:C.
  - apply Z.leb_le in C. split; [apply (det_coprime p1 p0 q1 q0); rewrite EP; exact Hep|]. split; [lia|]. intros u v Hv. rewrite A1. destruct (K u v Hv) as [K1|K1]; [exact K1|].
    apply (lim_trans d b1d m q1 v); lia.
  - apply Z.leb_gt in C. split; [apply (det_coprime b1n p1 b1d q1); destruct Hep as [->| ->]; [right|left]; lia|]. split; [lia|]. intros u v Hv. rewrite A2. destruct (K u v Hv) as [K1|K1]; [|exact K1].
    apply (lim_trans m q1 d b1d v); lia.
Qed.
End Limit.
Lemma same_fraction : forall r s u v, 0 < s -> 0 < v -> Z.gcd r s = 1 -> Z.gcd u v = 1 -> r * v = u * s -> (r, s) = (u, v).
Proof.
  intros r s u v Hs Hv G1 G2 E. assert (D1 : (s | v)) by (apply (Z.gauss _ r); [exists u; lia|rewrite Z.gcd_comm; exact G1]). assert (D2 : (v | s)) by (apply (Z.gauss _ u); [exists r; lia|rewrite Z.gcd_comm; exact G2]).
  assert (s = v) by (apply Z.divide_antisym_nonneg; [lia|lia|exact D1|exact D2]). subst v. f_equal. nia.
Qed.
Lemma limit_facts : forall maxd num den, 1 <= maxd <= 150 -> 0 <= num -> 0 < den -> Z.gcd num den = 1 -> let '(r, s) := limit_denominator maxd num den in
  Z.gcd r s = 1 /\ 1 <= s <= maxd /\ forall u v, 1 <= v <= maxd -> Z.abs (r * den - num * s) * v <= Z.abs (u * den - num * v) * s.
Proof.
  intros maxd num den Hm Hn Hd G. destruct (Z.lt_ge_cases maxd den) as [L|L]; [apply lim_best; assumption|]. unfold limit_denominator. assert (den <=? maxd = true) as -> by (apply Z.leb_le; lia).
  split; [exact G|]. split; [lia|]. intros u v Hv. replace (num * den - num * den) with 0 by ring. cbn [Z.abs]. rewrite Z.mul_0_l. nia.
Qed.
Lemma limit_recovers : forall maxd num den u v, 1 <= maxd <= 150 -> 0 <= num -> 0 < den -> Z.gcd num den = 1 -> 1 <= v <= maxd -> Z.gcd u v = 1 -> 2 * (maxd * maxd) * Z.abs (u * den - num * v) < den * v -> limit_denominator maxd num den = (u, v).
Proof.
  intros maxd num den u v Hm Hn Hd G Hv Gu H. pose proof (limit_facts maxd num den Hm Hn Hd G) as F. destruct (limit_denominator maxd num den) as [r s]. destruct F as (G1 & Hs & F). specialize (F u v Hv).
  apply same_fraction; try lia; try assumption. set (t := Z.abs (u * den - num * v)) in *. set (e := Z.abs (r * den - num * s)) in *.
  assert (E : (r * v - u * s) * den = (r * den - num * s) * v - (u * den - num * v) * s) by ring.
  assert (B : Z.abs (r * v - u * s) * den <= 2 * (t * s)). { rewrite <- (Z.abs_eq den) at 1 by lia. rewrite <- Z.abs_mul, E. pose proof (Z.abs_triangle ((r * den - num * s) * v) (- ((u * den - num * v) * s))) as T. rewrite Z.abs_opp, !Z.abs_mul, (Z.abs_eq v), (Z.abs_eq s) in T by lia. fold t e in T. unfold Z.sub. lia. }
  destruct (Z.eq_dec (r * v - u * s) 0) as [|NZ]; [lia|]. exfalso. assert (1 <= Z.abs (r * v - u * s)) by lia. assert (den <= 2 * (t * s)) by nia.
  assert (maxd * maxd * den <= s * (2 * (maxd * maxd) * t)) by nia. assert (0 <= t) by (unfold t; lia). assert (s * (2 * (maxd * maxd) * t) < s * (den * v)) by (apply Zmult_lt_compat_l; lia). assert (s * v <= maxd * maxd) by nia. nia.
Qed.

(* ------------------------------------------------------------------ errors *)
Lemma xor_bits x y : is_bit x -> is_bit y -> Z.lxor x y = if x =? y then 0 else 1.
Proof. intros [-> | ->] [-> | ->]; reflexivity. Qed.
Lemma xor_sum_bits a b : bits a -> bits b -> length a = length b -> xor_sum a b = Ok (bit_errors a b).
Proof.
  intros Ha Hb HL. unfold xor_sum. rewrite HL, Nat.eqb_refl. f_equal. unfold bit_errors.
  revert b Hb HL. induction Ha as [|x a Hx Ha IH]; intros [|y b] Hb HL; try discriminate; [reflexivity|]. inversion Hb; subst.
  cbn [combine map filter fst snd]. rewrite Zsum_cons, IH by (assumption || (cbn in HL; lia)). rewrite xor_bits by assumption.
  destruct (x =? y); cbn [negb length]; lia.
Qed.
Lemma bit_errors_bounds a b : 0 <= bit_errors a b <= Z.of_nat (length a).
Proof.
  unfold bit_errors. split; [lia|]. apply inj_le. revert b. induction a as [|x a IH]; intros [|y b]; cbn [combine filter length]; try lia.
  specialize (IH b). destruct (negb _); cbn [length]; lia.
Qed.
Lemma bits_firstn n l : bits l -> bits (firstn n l).
Proof. intros H. apply Forall_forall. intros x Hx. unfold bits in H. rewrite Forall_forall in H. apply H. rewrite <- (firstn_skipn n). apply in_or_app. left. exact Hx. Qed.
Lemma bits_skipn n l : bits l -> bits (skipn n l).
Proof. intros H. apply Forall_forall. intros x Hx. unfold bits in H. rewrite Forall_forall in H. apply H. rewrite <- (firstn_skipn n). apply in_or_app. right. exact Hx. Qed.
Lemma bits_slice l a b : bits l -> bits (slice l a b).
Proof. intros H. apply bits_firstn, bits_skipn, H. Qed.

Section Loops.
Context {W Snr Sy Y G V : Type} (m : link W Snr Sy Y G V).
Hypothesis Hs : sane m.

Lemma transmit_facts w n msg dec w' : transmit m w n = Ok (msg, dec, w') -> length msg = n /\ bits msg /\ bits dec /\ (n <= length dec)%nat.
Proof.
  intros E. destruct (proj2 Hs w n msg dec w' E) as [H1 H2]. unfold transmit in E. pose proof (proj1 Hs w n) as [H3 H4].
  destruct (l_choice m w n) as [msg0 w0]. cbn [fst] in *. destruct (l_modulate m w0 msg0) as [[sy w1]|]; cbn [bind] in E; [|discriminate].
  destruct (l_propagate m w1 sy) as [[[out g] w2]|]; cbn [bind] in E; [|discriminate].
  destruct (if is_mimo m then _ else _) as [r|]; cbn [bind] in E; [|discriminate]. destruct (l_decoder _ _ _ _ _ _) as [[d w3]|]; cbn [bind] in E; [|discriminate].
  injection E as <- <- <-. auto.
Qed.
Lemma transmit_errors w n msg dec w' : transmit m w n = Ok (msg, dec, w') -> exists e, xor_sum msg (firstn (length msg) dec) = Ok e /\ 0 <= e <= Z.of_nat n.
Proof.
  intros E. destruct (transmit_facts w n msg dec w' E) as (H1 & H2 & H3 & H4). eexists. split.
  - apply xor_sum_bits; [exact H2|apply bits_firstn; exact H3|]. rewrite firstn_length. lia.
  - rewrite <- H1. apply bit_errors_bounds.
Qed.

Lemma send_loop_facts send_max err_min chunk : 0 < chunk -> forall fuel bs be w be' bs' w', 0 <= be <= bs ->
  send_loop fuel m send_max err_min chunk bs be w = Ok (be', bs', w') ->
  0 <= be' <= bs' /\ (exists j : nat, bs' = bs + Z.of_nat j * chunk) /\ (send_max <= bs' \/ err_min <= be') /\
  ((bs' = bs /\ be' = be) \/ (bs < bs' < send_max + chunk /\ be' < err_min + chunk /\ bs < send_max /\ be < err_min)).
Proof.
  intros Hc. induction fuel as [|fuel IH]; intros bs be w be' bs' w' Hbe E; cbn [send_loop] in E; [discriminate|].
  destruct (Z.ltb_spec bs send_max) as [L1|L1]; [destruct (Z.ltb_spec be err_min) as [L2|L2]|]; cbn [andb] in E.
  2,3: injection E as <- <- <-; split; [exact Hbe|]; split; [exists 0%nat; lia|]; split; [lia|]; left; auto.
  destruct (transmit m w (Z.to_nat chunk)) as [[[msg dec] w1]|] eqn:Et; cbn [bind] in E; [|discriminate].
  destruct (transmit_errors _ _ _ _ _ Et) as (e & Ee & He). rewrite Ee in E. cbn [bind] in E.
  destruct (IH (bs + chunk) (be + e) w1 be' bs' w' ltac:(lia) E) as (H1 & (j & H2) & H3 & H4).
  split; [exact H1|]. split; [exists (S j); lia|]. split; [exact H3|]. right. destruct H4 as [[H4 H5]|H4]; lia.
Qed.

Lemma send_loop_ends send_max err_min chunk : calls_end m -> 0 < chunk -> forall fuel bs be w,
  (Z.to_nat (send_max - bs) < fuel)%nat -> send_loop fuel m send_max err_min chunk bs be w <> Err OutOfFuel.
Proof.
  clear Hs. intros [He _] Hc. induction fuel as [|fuel IH]; intros bs be w Hf; cbn [send_loop]; [lia|].
  destruct (Z.ltb_spec bs send_max) as [L1|L1]; [destruct (Z.ltb_spec be err_min) as [L2|L2]|]; cbn [andb]; try discriminate.
  specialize (He w (Z.to_nat chunk)). destruct (transmit m w (Z.to_nat chunk)) as [[[msg dec] w1]|] eqn:Et; cbn [bind]; [|congruence].
  assert (Hx : forall a b, xor_sum a b <> Err OutOfFuel).
  { intros a b. unfold xor_sum. destruct (_ =? _)%nat; [discriminate|]. destruct a as [|? [|]], b as [|? [|]]; discriminate. }
  specialize (Hx msg (firstn (length msg) dec)). destruct (xor_sum _ _) as [e|]; cbn [bind]; [apply IH; lia|congruence].
Qed.

Lemma snr_loop_ends send_max err_min chunk fuel : calls_end m -> 0 < chunk -> (Z.to_nat send_max < fuel)%nat -> forall snrs w,
  snr_loop fuel m send_max err_min chunk w snrs <> Err OutOfFuel.
Proof.
  clear Hs. intros He Hc Hf. induction snrs as [|s snrs IH]; intros w; cbn [snr_loop]; [discriminate|].
  pose proof (proj2 He w s) as H1. destruct (l_set_snr m w s) as [w1|]; cbn [bind]; [|congruence].
  pose proof (send_loop_ends send_max err_min chunk He Hc fuel 0 0 w1 ltac:(rewrite Z.sub_0_r; exact Hf)) as H2.
  destruct (send_loop _ _ _ _ _ _ _ _) as [[[be bs] w2]|]; cbn [bind]; [|congruence]. destruct (bs =? 0); [discriminate|]. destruct (be <? err_min); [discriminate|].
  specialize (IH w2). destruct (snr_loop _ _ _ _ _ _ _); cbn [bind]; [discriminate|congruence].
Qed.

(* the loop does not depend on the fuel once it is sufficient *)
Lemma snr_loop_facts send_max err_min chunk fuel : 0 < chunk -> forall snrs w l, snr_loop fuel m send_max err_min chunk w snrs = Ok l ->
  length l = length snrs /\
  (snrs <> [] -> exists e s, nth_error l 0 = Some (Some (e, s))) /\
  (forall i e s, nth_error l i = Some (Some (e, s)) ->
     0 <= e <= s /\ 0 < s < send_max + chunk /\ (chunk | s) /\ e < err_min + chunk /\ (send_max <= s \/ err_min <= e)) /\
  (forall i e s, nth_error l i = Some (Some (e, s)) -> (S i < length l)%nat ->
     if e <? err_min then forall j, (i < j < length l)%nat -> nth_error l j = Some None
     else exists e' s', nth_error l (S i) = Some (Some (e', s'))).
Proof.
  intros Hc. induction snrs as [|x snrs IH]; intros w l E; cbn [snr_loop] in E.
  { injection E as <-. split; [reflexivity|]. split; [congruence|]. split; intros [|i] e s H; discriminate. }
  destruct (l_set_snr m w x) as [w1|]; cbn [bind] in E; [|discriminate].
  destruct (send_loop fuel m send_max err_min chunk 0 0 w1) as [[[be bs] w2]|] eqn:Es; cbn [bind] in E; [|discriminate].
  destruct (send_loop_facts send_max err_min chunk Hc fuel 0 0 w1 be bs w2 ltac:(lia) Es) as (H1 & (j & H2) & H3 & H4).
  destruct (Z.eqb_spec bs 0) as [|Hbs]; [discriminate|].
  assert (Hd : (chunk | bs)) by (exists (Z.of_nat j); lia).
  assert (H0 : 0 <= be <= bs /\ 0 < bs < send_max + chunk /\ (chunk | bs) /\ be < err_min + chunk /\ (send_max <= bs \/ err_min <= be)).
  { split; [exact H1|]. split; [lia|]. split; [exact Hd|]. split; [lia|exact H3]. }
  destruct (Z.ltb_spec be err_min) as [L|L].
  - injection E as <-. split; [cbn [length]; rewrite repeat_length; reflexivity|]. split; [intros _; exists be, bs; reflexivity|]. split.
    + intros [|i] e s H; cbn [nth_error] in H; [injection H as <- <-; exact H0|]. apply nth_error_In, repeat_spec in H. discriminate.
    + intros [|i] e s H Hi; cbn [nth_error] in H.
      * injection H as <- <-. apply Z.ltb_lt in L. rewrite L. intros [|k] Hk; [lia|]. cbn [nth_error length] in *. rewrite repeat_length in Hk.
        apply nth_error_repeat. lia.
      * apply nth_error_In, repeat_spec in H. discriminate.
  - destruct (snr_loop fuel m send_max err_min chunk w2 snrs) as [l'|] eqn:El; cbn [bind] in E; [|discriminate]. injection E as <-.
    destruct (IH w2 l' El) as (I1 & I2 & I3 & I4). split; [cbn [length]; congruence|]. split; [intros _; exists be, bs; reflexivity|]. split.
    + intros [|i] e s H; cbn [nth_error] in H; [injection H as <- <-; exact H0|]. apply (I3 i). exact H.
    + intros [|i] e s H Hi; cbn [nth_error] in H.
      * injection H as <- <-. apply Z.ltb_ge in L. rewrite L. cbn [length] in Hi. destruct snrs as [|x' snrs]; [destruct l'; [cbn in Hi; lia|discriminate]|].
        destruct I2 as (e' & s' & E'); [discriminate|]. exists e', s'. exact E'.
      * cbn [length] in Hi. specialize (I4 i e s H ltac:(lia)). destruct (e <? err_min).
        -- intros [|k] Hk; [lia|]. cbn [nth_error length] in *. apply I4. lia.
        -- exact I4.
Qed.

Lemma bit_errors_firstn a : forall b, bit_errors a (firstn (length a) b) = bit_errors a b.
Proof.
  unfold bit_errors. intros b. do 2 f_equal. f_equal. revert b. induction a as [|x a IH]; intros [|y b]; try reflexivity. cbn [length firstn combine]. f_equal. apply IH.
Qed.
Lemma total_errors_cons t l : total_errors (t :: l) = bit_errors (fst t) (snd t) + total_errors l.
Proof. reflexivity. Qed.
Lemma send_loop_run send_max err_min chunk : 0 < chunk -> forall fuel bs be w be' bs' w',
  send_loop fuel m send_max err_min chunk bs be w = Ok (be', bs', w') ->
  exists tr, transmissions m (Z.to_nat chunk) w tr w' /\ be' = be + total_errors tr /\ bs' = bs + chunk * Z.of_nat (length tr) /\
    (forall k, (k < length tr)%nat -> bs + chunk * Z.of_nat k < send_max /\ be + total_errors (firstn k tr) < err_min).
Proof.
  intros Hc. induction fuel as [|fuel IH]; intros bs be w be' bs' w' E; cbn [send_loop] in E; [discriminate|].
  destruct (Z.ltb_spec bs send_max) as [L1|L1]; [destruct (Z.ltb_spec be err_min) as [L2|L2]|]; cbn [andb] in E.
  2,3: injection E as <- <- <-; exists []; split; [constructor|]; unfold total_errors; cbn [map Zsum fold_right length]; split; [lia|]; split; [lia|]; intros k Hk; lia.
  destruct (transmit m w (Z.to_nat chunk)) as [[[msg dec] w1]|] eqn:Et; cbn [bind] in E; [|discriminate].
  destruct (transmit_facts _ _ _ _ _ Et) as (F1 & F2 & F3 & F4). rewrite xor_sum_bits in E; [|exact F2|apply bits_firstn; exact F3|rewrite firstn_length; lia].
  rewrite bit_errors_firstn in E. cbn [bind] in E. destruct (IH _ _ _ _ _ _ E) as (tr & H1 & H2 & H3 & H4). exists ((msg, dec) :: tr).
  split; [econstructor; eassumption|]. rewrite total_errors_cons. cbn [fst snd length]. split; [lia|]. split; [lia|].
  intros [|k] Hk; cbn [firstn]; [unfold total_errors; cbn [map Zsum fold_right]; lia|]. rewrite total_errors_cons. cbn [fst snd]. specialize (H4 k ltac:(lia)). lia.
Qed.

Lemma send_loop_fuel send_max err_min chunk fuel : forall fuel' bs be w, (fuel <= fuel')%nat ->
  send_loop fuel m send_max err_min chunk bs be w <> Err OutOfFuel ->
  send_loop fuel' m send_max err_min chunk bs be w = send_loop fuel m send_max err_min chunk bs be w.
Proof.
  induction fuel as [|fuel IH]; intros [|fuel'] bs be w Hf H; cbn [send_loop] in *; try congruence; try lia.
  destruct ((bs <? send_max) && (be <? err_min)); [|reflexivity]. destruct (transmit _ _ _) as [[[msg dec] w1]|]; cbn [bind] in *; [|reflexivity].
  destruct (xor_sum _ _); cbn [bind] in *; [|reflexivity]. apply IH; [lia|exact H].
Qed.
Lemma snr_loop_fuel send_max err_min chunk fuel fuel' : (fuel <= fuel')%nat -> forall snrs w,
  snr_loop fuel m send_max err_min chunk w snrs <> Err OutOfFuel ->
  snr_loop fuel' m send_max err_min chunk w snrs = snr_loop fuel m send_max err_min chunk w snrs.
Proof.
  intros Hf. induction snrs as [|s snrs IH]; intros w H; cbn [snr_loop] in *; [reflexivity|]. destruct (l_set_snr m w s) as [w1|]; cbn [bind] in *; [|reflexivity].
  assert (H1 : send_loop fuel m send_max err_min chunk 0 0 w1 <> Err OutOfFuel). { intros E. rewrite E in H. cbn [bind] in H. congruence. }
  rewrite (send_loop_fuel _ _ _ _ _ _ _ _ Hf H1). destruct (send_loop fuel m send_max err_min chunk 0 0 w1) as [[[be bs] w2]|]; cbn [bind] in *; [|reflexivity].
  destruct (bs =? 0); [reflexivity|]. destruct (be <? err_min); [reflexivity|]. rewrite IH; [reflexivity|]. intros E. rewrite E in H. cbn [bind] in H. congruence.
Qed.
Lemma snr_loop_runs send_max err_min chunk fuel : 0 < chunk -> forall snrs w l, snr_loop fuel m send_max err_min chunk w snrs = Ok l ->
  forall i e s, nth_error l i = Some (Some (e, s)) -> exists w1 tr w2, transmissions m (Z.to_nat chunk) w1 tr w2 /\ e = total_errors tr /\ s = chunk * Z.of_nat (length tr) /\
    forall k, (k < length tr)%nat -> chunk * Z.of_nat k < send_max /\ total_errors (firstn k tr) < err_min.
Proof.
  intros Hc. induction snrs as [|x snrs IH]; intros w l E i e s Hi; cbn [snr_loop] in E; [injection E as <-; destruct i; discriminate|].
  destruct (l_set_snr m w x) as [w1|]; cbn [bind] in E; [|discriminate].
  destruct (send_loop fuel m send_max err_min chunk 0 0 w1) as [[[be bs] w2]|] eqn:Es; cbn [bind] in E; [|discriminate].
  destruct (send_loop_run _ _ _ Hc _ _ _ _ _ _ _ Es) as (tr & H1 & H2 & H3 & H4).
  assert (H0 : exists w1 tr w2, transmissions m (Z.to_nat chunk) w1 tr w2 /\ be = total_errors tr /\ bs = chunk * Z.of_nat (length tr) /\
    forall k, (k < length tr)%nat -> chunk * Z.of_nat k < send_max /\ total_errors (firstn k tr) < err_min) by (exists w1, tr, w2; auto).
  destruct (bs =? 0); [discriminate|]. destruct (be <? err_min).
  - injection E as <-. destruct i as [|i]; cbn [nth_error] in Hi; [injection Hi as <- <-; exact H0|]. apply nth_error_In, repeat_spec in Hi. discriminate.
  - destruct (snr_loop fuel m send_max err_min chunk w2 snrs) as [l'|] eqn:El; cbn [bind] in E; [|discriminate]. injection E as <-.
    destruct i as [|i]; cbn [nth_error] in Hi; [injection Hi as <- <-; exact H0|]. apply (IH w2 l' El i e s Hi).
Qed.

(* ------------------------------------------------------------------ full metrics *)
Lemma mapM_seq_ok {A} (f : nat -> res A) (P : A -> Prop) n : forall a, (forall i, (a <= i < a + n)%nat -> exists x, f i = Ok x /\ P x) ->
  exists l, mapM f (seq a n) = Ok l /\ length l = n /\ Forall P l.
Proof.
  induction n as [|n IH]; intros a H; cbn [seq mapM]; [exists []; auto|]. destruct (H a ltac:(lia)) as (x & -> & Hx). cbn [bind].
  destruct (IH (S a)) as (l & -> & L & HF); [intros i Hi; apply H; lia|]. cbn [bind]. exists (x :: l). split; [reflexivity|]. split; [cbn; lia|]. constructor; assumption.
Qed.
Lemma Zsum_bound l (M : Z) : Forall (fun x => 0 <= x <= M) l -> 0 <= Zsum l <= Z.of_nat (length l) * M.
Proof. induction 1 as [|x l Hx H IH]; [cbn; lia|]. rewrite Zsum_cons. cbn [length]. nia. Qed.

Lemma chunk_errors_facts chunk ncps w msg dec w' : transmit m w (chunk * ncps) = Ok (msg, dec, w') ->
  exists es, chunk_errors chunk ncps msg dec = Ok es /\ length es = ncps /\ Forall (fun e => 0 <= e <= Z.of_nat chunk) es.
Proof.
  intros E. destruct (transmit_facts _ _ _ _ _ E) as (H1 & H2 & H3 & H4). unfold chunk_errors. apply mapM_seq_ok. intros i Hi.
  assert (Hi' : (chunk * (i + 1) <= chunk * ncps)%nat) by (apply Nat.mul_le_mono_l; lia).
  eexists. split. { apply xor_sum_bits; try (apply bits_slice; assumption). rewrite !slice_length by lia. reflexivity. }
  match goal with |- 0 <= bit_errors ?a ?b <= _ => pose proof (bit_errors_bounds a b) as H; rewrite slice_length in H by lia end. lia.
Qed.

Definition rows_ok (chunk ncps : nat) (tx : list (Z * Z * Z)) : Prop :=
  Forall (fun r => 0 <= fst (fst r) <= Z.of_nat chunk * Z.of_nat ncps /\ snd r = Z.of_nat ncps) tx.
Definition errs (tx : list (Z * Z * Z)) : list Z := map (fun r => fst (fst r)) tx.

Lemma tx_loop_facts err_min chunk ncps stop n : forall tx w tx' w', rows_ok chunk ncps tx ->
  tx_loop n m err_min chunk ncps stop tx w = Ok (tx', w') ->
  rows_ok chunk ncps tx' /\ exists more, tx' = tx ++ more /\ (length more <= n)%nat /\
    ((length more < n)%nat -> stop = true /\ err_min < Zsum (errs tx')) /\
    (more <> [] -> stop = true -> Zsum (errs (removelast tx')) <= err_min).
Proof.
  induction n as [|n IH]; intros tx w tx' w' Hr E; cbn [tx_loop] in E.
  { injection E as <- <-. split; [exact Hr|]. exists []. rewrite app_nil_r. split; [reflexivity|]. split; [cbn; lia|]. split; [cbn; lia|congruence]. }
  destruct (stop && (err_min <? Zsum (map (fun r => fst (fst r)) tx))) eqn:Est.
  { injection E as <- <-. apply andb_prop in Est. destruct Est as [-> Est]. apply Z.ltb_lt in Est. split; [exact Hr|]. exists []. rewrite app_nil_r.
    split; [reflexivity|]. split; [cbn; lia|]. split; [intros _; split; [reflexivity|exact Est]|congruence]. }
  destruct (transmit m w (chunk * ncps)) as [[[msg dec] w1]|] eqn:Et; cbn [bind] in E; [|discriminate].
  destruct (chunk_errors_facts _ _ _ _ _ _ Et) as (es & Ee & Les & Hes). rewrite Ee in E. cbn [bind] in E.
  set (row := (Zsum es, Zsum (map (fun e => if 0 <? e then 1 else 0) es), Z.of_nat ncps)) in *.
  apply IH in E.
  2:{ apply Forall_app. split; [exact Hr|]. constructor; [|constructor]. unfold row. cbn [fst snd]. split; [|reflexivity]. pose proof (Zsum_bound es (Z.of_nat chunk) Hes) as H. rewrite Les in H. lia. }
  destruct E as (H1 & more & H2 & H3 & H4 & H5). split; [exact H1|]. exists (row :: more). subst tx'.
  split; [rewrite <- app_assoc; reflexivity|]. split; [cbn [length]; lia|]. split; [cbn [length]; intros; apply H4; lia|].
  intros _ Hst. destruct more as [|r more].
  - rewrite app_nil_r, removelast_last. subst stop. cbn [andb] in Est. apply Z.ltb_ge in Est. exact Est.
  - apply H5; [discriminate|exact Hst].
Qed.

Lemma Zsum_pad n l : Zsum (pad_row n l) = Zsum l.
Proof. unfold pad_row. rewrite Zsum_app, Zsum_repeat0. lia. Qed.
Lemma Zsum_errs_bound chunk ncps tx : rows_ok chunk ncps tx -> 0 <= Zsum (errs tx) <= Z.of_nat (length tx) * (Z.of_nat chunk * Z.of_nat ncps).
Proof.
  intros H. assert (HF : Forall (fun x => 0 <= x <= Z.of_nat chunk * Z.of_nat ncps) (errs tx)).
  { unfold errs. apply Forall_map. eapply Forall_impl; [|exact H]. cbn beta. tauto. }
  pose proof (Zsum_bound _ _ HF) as B. assert (length (errs tx) = length tx) as L by apply map_length. rewrite L in B. exact B.
Qed.
End Loops.

(* ------------------------------------------------------------------ iterative detection and decoding *)
Lemma foldM_ok_inv {S} (P : nat -> S -> Prop) (f : S -> nat -> res S) N : forall a s s', P a s -> foldM f (seq a N) s = Ok s' ->
  (forall i s s1, (a <= i < a + N)%nat -> P i s -> f s i = Ok s1 -> P (i + 1)%nat s1) -> P (a + N)%nat s'.
Proof.
  induction N as [|N IH]; intros a s s' H0 E Hf; cbn [seq foldM] in E.
  - injection E as <-. rewrite Nat.add_0_r. exact H0.
  - destruct (f s a) as [s1|] eqn:E1; cbn [bind] in E; [|discriminate]. replace (a + Datatypes.S N)%nat with (Datatypes.S a + N)%nat by lia.
    apply (IH (Datatypes.S a) s1 s'); [|exact E|].
    + replace (Datatypes.S a) with (a + 1)%nat by lia. apply (Hf a s); [lia|exact H0|exact E1].
    + intros i t t1 Hi Ht Et. apply (Hf i t); [lia|exact Ht|exact Et].
Qed.
Lemma py_get_inv {V} (l : list V) i a : py_get l (Z.of_nat i) = Ok a -> nth_error l i = Some a.
Proof.
  unfold py_get, py_idx. destruct (Z.leb_spec 0 (Z.of_nat i)); [|lia]. destruct (Z.ltb_spec (Z.of_nat i) (Z.of_nat (length l))) as [H1|H1]; cbn [andb].
  - rewrite Nat2Z.id. destruct (nth_error l i); congruence.
  - destruct (Z.ltb_spec (Z.of_nat i) 0); [lia|]. rewrite andb_false_r. discriminate.
Qed.
Lemma assign_slice_ok {V} (dst : list V) a b src : (a <= b)%nat -> (b <= length dst)%nat -> length src = (b - a)%nat ->
  assign_slice dst a b src = Ok (firstn a dst ++ src ++ skipn b dst).
Proof.
  intros H1 H2 H3. unfold assign_slice. rewrite slice_length by exact H2. rewrite H3, Nat.eqb_refl. replace (a + (b - a))%nat with b by lia. reflexivity.
Qed.
Lemma list_ext {V} (l l' : list V) : length l = length l' -> (forall i d, (i < length l)%nat -> nth i l d = nth i l' d) -> l = l'.
Proof. intros HL H. destruct l as [|x l]; [destruct l'; [reflexivity|discriminate]|]. apply (nth_ext _ _ x x HL). intros n Hn. apply H. exact Hn. Qed.
Lemma assigned_nth {V} (dst : list V) a b src i d : (a <= b)%nat -> (b <= length dst)%nat -> length src = (b - a)%nat ->
  nth i (firstn a dst ++ src ++ skipn b dst) d = if (a <=? i)%nat && (i <? b)%nat then nth (i - a) src d else nth i dst d.
Proof.
  intros H1 H2 H3. destruct (Nat.leb_spec a i) as [L1|L1]; cbn [andb].
  - rewrite app_nth2 by (rewrite firstn_length; lia). rewrite firstn_length. replace (Nat.min a (length dst)) with a by lia.
    destruct (Nat.ltb_spec i b) as [L2|L2].
    + rewrite app_nth1 by lia. reflexivity.
    + rewrite app_nth2 by lia. rewrite skipn_nth. f_equal. lia.
  - rewrite app_nth1 by (rewrite firstn_length; lia). apply firstn_nth. exact L1.
Qed.
Lemma assigned_length {V} (dst : list V) a b src : (a <= b)%nat -> (b <= length dst)%nat -> length src = (b - a)%nat -> length (firstn a dst ++ src ++ skipn b dst) = length dst.
Proof. intros. rewrite !app_length, firstn_length, skipn_length. lia. Qed.
Lemma assigned_same {V} (dst : list V) a b src : (a <= b)%nat -> (b <= length dst)%nat -> length src = (b - a)%nat -> slice (firstn a dst ++ src ++ skipn b dst) a b = src.
Proof.
  intros H1 H2 H3. apply list_ext; [rewrite slice_length by (rewrite assigned_length; assumption); lia|]. intros i d Hi. rewrite slice_length in Hi by (rewrite assigned_length; assumption).
  rewrite slice_nth by lia. rewrite assigned_nth by assumption. assert (a <=? a + i = true)%nat as -> by (apply Nat.leb_le; lia). assert (a + i <? b = true)%nat as -> by (apply Nat.ltb_lt; lia).
  cbn [andb]. f_equal. lia.
Qed.
Lemma assigned_other {V} (dst : list V) a b src c e : (a <= b)%nat -> (b <= length dst)%nat -> length src = (b - a)%nat -> (e <= length dst)%nat -> (e <= a \/ b <= c)%nat ->
  slice (firstn a dst ++ src ++ skipn b dst) c e = slice dst c e.
Proof.
  intros H1 H2 H3 He Hd. apply list_ext; [rewrite !slice_length by (rewrite ?assigned_length; assumption); lia|]. intros i d Hi. rewrite slice_length in Hi by (rewrite assigned_length; assumption).
  rewrite !slice_nth by lia. rewrite assigned_nth by assumption. destruct (Nat.leb_spec a (c + i)); destruct (Nat.ltb_spec (c + i) b); cbn [andb]; try reflexivity. lia.
Qed.
Lemma zipw_ok {A} (f : A -> A -> A) a b c : zipw f a b = Ok c -> length a = length b /\ c = map2 f a b.
Proof. unfold zipw. destruct (Nat.eqb_spec (length a) (length b)); [|discriminate]. intros E. injection E as <-. auto. Qed.
Lemma map2_length {A} (f : A -> A -> A) a b : length a = length b -> length (map2 f a b) = length a.
Proof. intros H. unfold map2. rewrite map_length, combine_length. lia. Qed.

Section IddProofs.
Context {A Y H B : Type} (add sub : A -> A -> A) (detector : Y -> H -> list A -> res (list A * list A)) (decoder : list A -> res (list A * list A)) (decision : list A -> res (list B)).
Hypothesis add_sub : forall x y, add (sub x y) y = x.
Context (b : nat).
Hypothesis Hdet : forall y h v d v', detector y h v = Ok (d, v') -> length d = b /\ length v' = length v.
Hypothesis Hdec : forall x d x', decoder x = Ok (d, x') -> length x' = length x.
Context (ys : list Y) (hs : list H) (n : nat).
Hypothesis Hn : n = (length hs * b)%nat.

Lemma detect_all_facts apr ap apr' apt' : length apr = n -> length ap = n -> detect_all detector ys hs b apr ap = Ok (apr', apt') ->
  length apr' = n /\ length apt' = n /\
  forall i, (i < length hs)%nat -> exists y h, nth_error ys i = Some y /\ nth_error hs i = Some h /\
    detector y h (slice ap (i * b) ((i + 1) * b)) = Ok (slice apr' (i * b) ((i + 1) * b), slice apt' (i * b) ((i + 1) * b)).
Proof.
  intros L1 L2 E. unfold detect_all in E.
  pose (P := fun (k : nat) (st : list A * list A) => length (fst st) = n /\ length (snd st) = n /\
    (forall j, (k <= j < length hs)%nat -> slice (snd st) (j * b) ((j + 1) * b) = slice ap (j * b) ((j + 1) * b)) /\
    forall i, (i < k)%nat -> (i < length hs)%nat -> exists y h, nth_error ys i = Some y /\ nth_error hs i = Some h /\
    detector y h (slice ap (i * b) ((i + 1) * b)) = Ok (slice (fst st) (i * b) ((i + 1) * b), slice (snd st) (i * b) ((i + 1) * b))).
  assert (HP : P (0 + length hs)%nat (apr', apt')).
  { eapply (foldM_ok_inv P); [|exact E|].
    - split; [exact L1|]. split; [exact L2|]. split; [reflexivity|]. intros i Hi; lia.
    - clear E. intros i [r t] [r1 t1] Hi (P1 & P2 & P3 & P4) E. cbn [fst snd] in *.
      destruct (py_get ys (Z.of_nat i)) as [y|] eqn:Ey; cbn [bind] in E; [|discriminate].
      destruct (py_get hs (Z.of_nat i)) as [h|] eqn:Eh; cbn [bind] in E; [|discriminate].
      destruct (detector y h _) as [[d v]|] eqn:Ed; cbn [bind] in E; [|discriminate].
      assert (Hib : ((i + 1) * b <= n)%nat) by (rewrite Hn; apply Nat.mul_le_mono_r; lia).
      assert (Hab : (i * b <= (i + 1) * b)%nat) by (apply Nat.mul_le_mono_r; lia).
      assert (Hbb : ((i + 1) * b - i * b = b)%nat) by lia.
      destruct (Hdet _ _ _ _ _ Ed) as [Ld Lv]. rewrite slice_length, Hbb in Lv by lia.
      rewrite assign_slice_ok in E by lia. cbn [bind] in E. rewrite assign_slice_ok in E by lia. cbn [bind] in E. injection E as <- <-.
      assert (Gy : nth_error ys i = Some y /\ nth_error hs i = Some h).
      { split; apply py_get_inv; assumption. }
      split; [cbn [fst]; rewrite assigned_length by lia; exact P1|]. split; [cbn [snd]; rewrite assigned_length by lia; exact P2|]. cbn [fst snd]. split.
      + intros j Hj. rewrite assigned_other; try lia; [apply P3; lia|rewrite P2, Hn; apply Nat.mul_le_mono_r; lia|right; apply Nat.mul_le_mono_r; lia].
      + intros k Hk Hk'. destruct (Nat.eq_dec k i) as [->|Hne].
        * exists y, h. split; [apply Gy|]. split; [apply Gy|]. rewrite !assigned_same by lia. rewrite <- (P3 i) by lia. exact Ed.
        * destruct (P4 k ltac:(lia) Hk') as (y' & h' & G1 & G2 & G3). exists y', h'. split; [exact G1|]. split; [exact G2|].
          assert (((k + 1) * b <= i * b)%nat) by (apply Nat.mul_le_mono_r; lia).
          rewrite !assigned_other by lia. exact G3. }
  destruct HP as (H1 & H2 & _ & H4). cbn [fst snd] in *. split; [exact H1|]. split; [exact H2|]. intros i Hi. apply H4; lia.
Qed.

Lemma idd_step_facts x o st : length x = n -> idd_step sub detector decoder ys hs b (x, o) = Ok st ->
  exists z left next, st = (next, Some left) /\ length z = n /\ length left = n /\ next = map2 sub z left /\ idd_round sub detector decoder ys hs b x z next.
Proof.
  intros L E. unfold idd_step in E. destruct (decoder x) as [[d x']|] eqn:Ed; cbn [bind] in E; [|discriminate].
  destruct (zipw sub d x') as [apt|] eqn:Ez; cbn [bind] in E; [|discriminate]. apply zipw_ok in Ez. destruct Ez as [Lz ->].
  pose proof (Hdec _ _ _ Ed) as Lx'.
  destruct (detect_all detector ys hs b x' (map2 sub d x')) as [[z left]|] eqn:Ea; cbn [bind] in E; [|discriminate].
  destruct (zipw sub z left) as [next|] eqn:Ez; cbn [bind] in E; [|discriminate]. apply zipw_ok in Ez. destruct Ez as [Lzl ->]. injection E as <-.
  apply detect_all_facts in Ea; [|congruence|rewrite map2_length by exact Lz; congruence]. destruct Ea as (H1 & H2 & H3).
  exists z, left, (map2 sub z left). split; [reflexivity|]. split; [exact H1|]. split; [exact H2|]. split; [reflexivity|].
  exists d, x', left. split; [exact Ed|]. split; [exact Lz|]. split; [congruence|]. split; [congruence|]. split; [exact H3|reflexivity].
Qed.

Lemma map2_add_sub z left : length z = length left -> map2 add (map2 sub z left) left = z.
Proof.
  unfold map2. revert left. induction z as [|u z IH]; intros [|v left] L; try discriminate; [reflexivity|]. cbn [combine map fst snd]. rewrite add_sub. f_equal. apply IH. cbn in L. lia.
Qed.

Lemma idd_decode_facts n_it a_priori bits_out caller : length a_priori = n -> idd_decode add sub detector decoder decision n_it ys hs a_priori b = Ok (bits_out, caller) ->
  caller = a_priori /\ exists (x z : nat -> list A), x 0%nat = a_priori /\ (forall k, (k < n_it)%nat -> idd_round sub detector decoder ys hs b (x k) (z k) (x (k + 1)%nat)) /\
    (1 <= n_it)%nat /\ decision (z (n_it - 1)%nat) = Ok bits_out.
Proof.
  intros L E. unfold idd_decode in E. destruct (foldM _ _ _) as [[apr [apt|]]|] eqn:Ef; cbn [bind] in E; try discriminate.
  destruct (zipw add apr apt) as [s|] eqn:Ez; cbn [bind] in E; [|discriminate]. apply zipw_ok in Ez. destruct Ez as [_ ->].
  destruct (decision (map2 add apr apt)) as [d|] eqn:Ed; cbn [bind] in E; [|discriminate]. injection E as <- <-. split; [reflexivity|].
  pose (P := fun (k : nat) (st : list A * option (list A)) => length (fst st) = n /\ exists x z : nat -> list A, x 0%nat = a_priori /\ x k = fst st /\
     (forall j, (j < k)%nat -> idd_round sub detector decoder ys hs b (x j) (z j) (x (j + 1)%nat)) /\
     match k with O => snd st = None | S k' => exists left, snd st = Some left /\ length (z k') = n /\ length left = n /\ fst st = map2 sub (z k') left end).
  assert (HP : P (0 + n_it)%nat (apr, Some apt)).
  { eapply (foldM_ok_inv P); [|exact Ef|].
    - split; [exact L|]. exists (fun _ => a_priori), (fun _ => a_priori). split; [reflexivity|]. split; [reflexivity|]. split; [intros j Hj; lia|reflexivity].
    - clear Ef. intros k [r t] st Hk (P1 & x & z & P2 & P3 & P4 & _) E. cbn [fst snd] in *. apply idd_step_facts in E; [|exact P1].
      destruct E as (z1 & left & next & -> & Q1 & Q2 & -> & Q3). cbn [fst snd]. split; [cbn [fst]; rewrite map2_length; congruence|].
      exists (fun j => if (j <=? k)%nat then x j else map2 sub z1 left), (fun j => if (j <? k)%nat then z j else z1).
      split; [exact P2|]. cbn [fst snd]. assert (k + 1 <=? k = false)%nat as -> by (apply Nat.leb_gt; lia). split; [reflexivity|]. split.
      + intros j Hj. destruct (Nat.eq_dec j k) as [->|Hne].
        * rewrite Nat.leb_refl, Nat.ltb_irrefl. assert (k + 1 <=? k = false)%nat as -> by (apply Nat.leb_gt; lia). rewrite P3. exact Q3.
        * assert (j <=? k = true)%nat as -> by (apply Nat.leb_le; lia). assert (j <? k = true)%nat as -> by (apply Nat.ltb_lt; lia).
          assert (j + 1 <=? k = true)%nat as -> by (apply Nat.leb_le; lia). apply P4. lia.
      + replace (k + 1)%nat with (S k) by lia. rewrite Nat.ltb_irrefl. exists left. auto. }
  destruct HP as (_ & x & z & H1 & H2 & H3 & H4). cbn [Nat.add fst snd] in *. exists x, z. split; [exact H1|]. split; [exact H3|].
  destruct n_it as [|k]; [discriminate|]. split; [lia|]. destruct H4 as (left & E1 & E2 & E3 & E4). injection E1 as ->.
  replace (S k - 1)%nat with k by lia. rewrite <- Ed. f_equal. rewrite E4. symmetry. apply map2_add_sub. congruence.
Qed.

Lemma idd_zero a_priori : idd_decode add sub detector decoder decision 0 ys hs a_priori b = Err UnboundLocalError.
Proof. reflexivity. Qed.
End IddProofs.

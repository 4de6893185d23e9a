(* Demodulation of noisy symbols: decision regions, minimum distances of PSK and QAM, max-log bound. *)
From Coq Require Import Permutation.
From Verif Require Import Base UtilModel UtilProofs Cplx ModemModel ModemSpec GrayProofs ModemProofs ModemSoft.
Open Scope Z_scope.

Lemma Cabs_triang a b : (Cabs (a + b)%C <= Cabs a + Cabs b)%R.
Proof.
  pose proof (Cabs_nonneg a) as Pa. pose proof (Cabs_nonneg b) as Pb. pose proof (Cabs_sqr a) as Sa. pose proof (Cabs_sqr b) as Sb.
  unfold Cabs at 1. rewrite <- (sqrt_square (Cabs a + Cabs b)) by lra. apply sqrt_le_1_alt.
  assert (CS : (re a * re b + im a * im b <= Cabs a * Cabs b)%R).
  { apply Rsqr_incr_0_var; [|apply Rmult_le_pos; assumption]. unfold Rsqr. replace (Cabs a * Cabs b * (Cabs a * Cabs b))%R with (Cabs a * Cabs a * (Cabs b * Cabs b))%R by ring. rewrite Sa, Sb. unfold Cnorm2. pose proof (Rle_0_sqr (re a * im b - im a * re b)) as Q. unfold Rsqr in Q. nra. }
  unfold Cnorm2, Cadd in *. cbn [re im]. nra.
Qed.
Lemma Cabs_sub a b : Cabs (a - b)%C = Cabs (b - a)%C.
Proof. unfold Cabs, Cnorm2, Csub. cbn [re im]. f_equal. ring. Qed.
Lemma Cabs_sub0 a : Cabs (a - a)%C = 0%R.
Proof. apply Cabs_0. creal. Qed.
Lemma Cabs_lt a b : (Cnorm2 a < Cnorm2 b -> Cabs a < Cabs b)%R.
Proof. intros H. apply sqrt_lt_1_alt. split; [apply Cnorm2_nonneg|exact H]. Qed.

Lemma hard_region md y l : wf md -> NoDup (points md) -> (l < length (points md))%nat -> (forall p, In p (points md) -> p <> nth l (points md) C0 -> (Cabs (y - nth l (points md) C0)%C < Cabs (y - p)%C)%R) -> hard_index md y = Ok l.
Proof.
  intros HW ND Hl H. destruct (hard_ok md y HW) as (k & E & K1 & K2 & _). rewrite E. f_equal. destruct (Nat.eq_dec k l) as [|Hne]; [assumption|]. exfalso. specialize (K2 l Hl).
  specialize (H (nth k (points md) C0) (nth_In _ _ K1)). assert (Hn : nth k (points md) C0 <> nth l (points md) C0) by (intros Ek; apply Hne; apply (NoDup_nth (points md) C0); assumption). specialize (H Hn). lra.
Qed.


Lemma demod_noise md bs s ys v : wf md -> NoDup (points md) -> (1 <= num_bits md)%nat -> bits bs -> bs <> [] -> modulate md bs = Ok s -> Forall2 (closest (points md)) s ys ->
  demodulate md ys Hard v = demodulate md s Hard v.
Proof.
  intros HW ND Hn Hb Hne Em HF. unfold demodulate. f_equal.
  assert (HS : Forall (fun x => exists l, (l < length (points md))%nat /\ x = nth l (points md) C0) s).
  { rewrite modulate_ok in Em by assumption. injection Em as <-. apply Forall_map, Forall_forall. intros k _. exists (label md bs k). split; [apply label_range; assumption|reflexivity]. }
  clear Em. induction HF as [|x y s ys Hxy HF IH]; [reflexivity|]. inversion HS as [|? ? (l & Hl & ->) HS']; subst. cbn [mapM]. rewrite (IH HS').
  rewrite (hard_region md y l HW ND Hl Hxy). rewrite (hard_exact md l HW ND Hl). reflexivity.
Qed.

Lemma closest_perm c c' x y : Permutation c c' -> closest c x y -> closest c' x y.
Proof. intros HP H p Hp. apply H. eapply Permutation_in; [symmetry; exact HP|exact Hp]. Qed.

Lemma closest_margin c d x y : (forall p p', In p c -> In p' c -> p <> p' -> (d <= Cabs (p - p')%C)%R) -> In x c -> (2 * Cabs (y - x)%C < d)%R -> closest c x y.
Proof.
  intros Hd Hx Hm p Hp Hne. specialize (Hd p x Hp Hx Hne). assert (T : (Cabs (p - x)%C <= Cabs (p - y)%C + Cabs (y - x)%C)%R). { replace (p - x)%C with ((p - y) + (y - x))%C by creal. apply Cabs_triang. }
  rewrite (Cabs_sub p y) in T. lra.
Qed.

(* ---------------------------------------------------------------- QAM: unit squares *)
Definition odd_point (n : nat) (p : C) : Prop := exists a b : Z, re p = (2 * IZR a - INR n + 1)%R /\ im p = (2 * IZR b - INR n + 1)%R.
Lemma qam_odd_points h c : qam_points (2 * h) = Ok c -> Forall (odd_point (2 * h)) c.
Proof.
  intros E. destruct (qam_ok h) as (c' & E' & HL & HN). rewrite E' in E. injection E as ->. set (n := (2 * h)%nat) in *. apply Forall_forall. intros p Hp. apply (In_nth _ _ C0) in Hp. destruct Hp as (i & Hi & <-). rewrite HL in Hi.
  assert (n <> 0)%nat by (intros E; rewrite E in Hi; cbn in Hi; lia). rewrite (Nat.div_mod i n) by lia. rewrite (Nat.mul_comm n). assert (i / n < n)%nat by (apply Nat.div_lt_upper_bound; lia). pose proof (Nat.mod_upper_bound i n ltac:(lia)). rewrite HN by lia.
  eexists (Z.of_nat _), (Z.of_nat _). cbn [re im]. unfold amp. rewrite <- !INR_IZR_INZ. split; reflexivity.
Qed.
Lemma square_shift (k : Z) (t : R) : (Rabs t < 1)%R -> (t * t <= (t - 2 * IZR k) * (t - 2 * IZR k))%R /\ (k <> 0%Z -> (t * t < (t - 2 * IZR k) * (t - 2 * IZR k))%R).
Proof.
  intros Ht. assert (-1 < t < 1)%R by (unfold Rabs in Ht; destruct (Rcase_abs t); lra). assert (E : ((t - 2 * IZR k) * (t - 2 * IZR k) - t * t = 4 * IZR k * (IZR k - t))%R) by ring.
  destruct (Z.lt_trichotomy k 0) as [Hk|[-> |Hk]].
  - assert (IZR k <= -1)%R by (apply IZR_le; lia). assert (0 < IZR k * (IZR k - t))%R by nra. split; [|intros _]; lra.
  - split; [|congruence]. lra.
  - assert (1 <= IZR k)%R by (apply IZR_le; lia). assert (0 < IZR k * (IZR k - t))%R by nra. split; [|intros _]; lra.
Qed.
Lemma closest_square n c x y : Forall (odd_point n) c -> In x c -> (Rabs (re y - re x) < 1)%R -> (Rabs (im y - im x) < 1)%R -> closest c x y.
Proof.
  intros HO Hx H1 H2 p Hp Hne. rewrite Forall_forall in HO. destruct (HO x Hx) as (a & b & Xa & Xb). destruct (HO p Hp) as (a' & b' & Pa & Pb). apply Cabs_lt. unfold Cnorm2, Csub. cbn [re im].
  replace (re y - re p)%R with (re y - re x - 2 * IZR (a' - a))%R by (rewrite minus_IZR; lra). replace (im y - im p)%R with (im y - im x - 2 * IZR (b' - b))%R by (rewrite minus_IZR; lra).
  destruct (square_shift (a' - a) _ H1) as [A1 A2]. destruct (square_shift (b' - b) _ H2) as [B1 B2]. destruct (Z.eq_dec a' a) as [Ea|Ea].
  - destruct (Z.eq_dec b' b) as [Eb|Eb]; [exfalso; apply Hne; apply C_ext; subst; congruence|]. specialize (B2 ltac:(lia)). lra.
  - specialize (A2 ltac:(lia)). lra.
Qed.

(* ---------------------------------------------------------------- PSK: chords *)
Lemma cis_chord s t : (Cnorm2 (cis s - cis t)%C = 4 * (sin ((s - t) / 2) * sin ((s - t) / 2)))%R.
Proof.
  unfold Cnorm2, Csub, cis. cbn [re im]. set (A := ((s + t) / 2)%R). set (B := ((s - t) / 2)%R).
  assert (Es : s = (A + B)%R) by (unfold A, B; field). assert (Et : t = (A - B)%R) by (unfold A, B; field). clearbody A B. subst s t.
  rewrite cos_plus, cos_minus, sin_plus, sin_minus. pose proof (sin2_cos2 A) as P. unfold Rsqr in P.
  transitivity (4 * ((sin A * sin A + cos A * cos A) * (sin B * sin B)))%R; [ring|]. rewrite P. ring.
Qed.
Lemma psk_distance m p p' : (2 <= m)%nat -> In p (psk_points m) -> In p' (psk_points m) -> p <> p' -> (2 * sin (PI / INR m) <= Cabs (p - p')%C)%R.
Proof.
  intros Hm Hp Hp' Hne. assert (HmR : (2 <= INR m)%R) by (apply (le_INR 2); exact Hm). pose proof PI_RGT_0 as Hpi.
  assert (G : forall i j, (i < j)%nat -> (j < m)%nat -> (2 * sin (PI / INR m) <= Cabs (cis (INR j * (2 * PI / INR m)) - cis (INR i * (2 * PI / INR m)))%C)%R).
  { intros i j Hij Hj. set (u := (PI / INR m)%R). assert (Hu : (0 < u)%R) by (apply Rdiv_lt_0_compat; lra). assert (Hu2 : (u <= PI / 2)%R). { unfold u, Rdiv. apply Rmult_le_compat_l; [lra|]. apply Rinv_le_contravar; lra. }
    assert (Hs : (0 <= sin u)%R) by (apply sin_ge_0; lra).
    unfold Cabs. rewrite <- (sqrt_square (2 * sin u)) by lra. apply sqrt_le_1_alt. rewrite cis_chord.
    replace ((INR j * (2 * PI / INR m) - INR i * (2 * PI / INR m)) / 2)%R with (INR (j - i) * u)%R by (rewrite minus_INR by lia; unfold u; field; lra).
    assert (Hk1 : (1 <= INR (j - i))%R) by (apply (le_INR 1); lia). assert (Hk2 : (INR (j - i) <= INR m - 1)%R) by (change 1%R with (INR 1); rewrite <- (minus_INR m 1) by lia; apply le_INR; lia).
    set (k := INR (j - i)) in *. assert (Hmu : (INR m * u = PI)%R) by (unfold u; field; lra).
    assert (Hsin : (sin u <= sin (k * u))%R).
    { destruct (Rle_dec (k * u) (PI / 2)) as [Hc|Hc].
      - apply sin_incr_1; try lra; nra.
      - rewrite <- (sin_PI_x (k * u)). apply sin_incr_1; try lra; nra. }
    nra. }
  apply (In_nth _ _ C0) in Hp. apply (In_nth _ _ C0) in Hp'. destruct Hp as (i & Hi & Ei). destruct Hp' as (j & Hj & Ej). rewrite psk_length in Hi, Hj. rewrite psk_nth in Ei, Ej by assumption. subst p p'.
  destruct (Nat.lt_trichotomy i j) as [H|[-> |H]]; [rewrite Cabs_sub; apply G; assumption|congruence|apply G; assumption].
Qed.

(* ---------------------------------------------------------------- max-log *)

Lemma digit_count w j t : (j < w)%nat -> t = 0 \/ t = 1 -> length (filter (fun l => digit w l j =? t) (seq 0 (2 ^ w))) = (2 ^ (w - 1))%nat.
Proof.
  intros Hj Ht. set (F := fun t => filter (fun l => digit w l j =? t) (seq 0 (2 ^ w))). set (e := Z.of_nat w - 1 - Z.of_nat j). assert (He : 0 <= e) by (unfold e; lia).
  assert (HE : 2 ^ e * 2 = 2 ^ (e + 1)) by (rewrite Z.pow_add_r by lia; reflexivity). assert (Hw : 2 ^ Z.of_nat w = 2 ^ (Z.of_nat j) * 2 ^ (e + 1)) by (rewrite <- Z.pow_add_r by lia; f_equal; unfold e; lia).
  assert (Hp : 0 < 2 ^ e) by (apply Z.pow_pos_nonneg; lia). assert (Hpj : 0 < 2 ^ Z.of_nat j) by (apply Z.pow_pos_nonneg; lia).
  assert (Sum : (length (F 0%Z) + length (F 1%Z) = 2 ^ w)%nat).
  { unfold F. rewrite <- (seq_length (2 ^ w) 0) at 3. generalize (seq 0 (2 ^ w)). intros l. induction l as [|x l IH]; [reflexivity|]. cbn [filter]. destruct (digit_bit w x j) as [E|E]; rewrite E; [change (0 =? 0) with true; change (0 =? 1) with false|change (1 =? 0) with false; change (1 =? 1) with true]; cbn [length]; lia. }
  assert (L01 : (length (F 0%Z) <= length (F 1%Z))%nat).
  { rewrite <- (map_length (fun l => (l + Z.to_nat (2 ^ e))%nat) (F 0)). apply NoDup_incl_length; [apply FinFun.Injective_map_NoDup; [intros a b H; lia|apply NoDup_filter, seq_NoDup]|].
    intros x Hx. apply in_map_iff in Hx. destruct Hx as (l & <- & Hl). apply filter_In in Hl. destruct Hl as [Hl Hd]. apply Z.eqb_eq in Hd. apply in_seq in Hl. unfold digit in Hd. fold e in Hd.
    assert (HlZ : 0 <= Z.of_nat l < 2 ^ Z.of_nat w) by (rewrite <- Zpow_nat; lia). set (q := Z.of_nat l / 2 ^ e) in *. assert (Hq : Z.of_nat l = 2 ^ e * q + Z.of_nat l mod 2 ^ e) by (apply Z.div_mod; lia). pose proof (Z.mod_pos_bound (Z.of_nat l) (2 ^ e) Hp).
    assert (Hq2 : q = 2 * (q / 2)) by (rewrite (Z.div_mod q 2) at 1 by lia; lia).
    assert (q / 2 < 2 ^ Z.of_nat j) by (apply Z.div_lt_upper_bound; [lia|]; apply (Z.mul_lt_mono_pos_l (2 ^ e)); [lia|]; replace (2 ^ e * (2 * 2 ^ Z.of_nat j)) with (2 ^ Z.of_nat w) by (rewrite Hw, <- HE; ring); lia).
    apply filter_In. split.
    - apply in_seq. split; [lia|]. apply Nat2Z.inj_lt. rewrite Nat.add_0_l, Nat2Z.inj_add, Z2Nat.id, Zpow_nat by lia. rewrite Hw, <- HE. nia.
    - apply Z.eqb_eq. unfold digit. fold e. rewrite Nat2Z.inj_add, Z2Nat.id by lia. rewrite <- (Z.mul_1_l (2 ^ e)) at 1. rewrite Z.div_add by lia. fold q. rewrite Hq2. rewrite Z.add_comm, Z.mul_comm, Z.mod_add by lia. reflexivity. }
  assert (L10 : (length (F 1%Z) <= length (F 0%Z))%nat).
  { rewrite <- (map_length (fun l => (l - Z.to_nat (2 ^ e))%nat) (F 1)).
    assert (K : forall l, In l (F 1) -> Z.of_nat l < 2 ^ Z.of_nat w /\ 2 ^ e <= Z.of_nat l /\ (Z.of_nat l / 2 ^ e) mod 2 = 1).
    { intros l Hl. apply filter_In in Hl. destruct Hl as [Hl Hd]. apply Z.eqb_eq in Hd. apply in_seq in Hl. unfold digit in Hd. fold e in Hd. split; [rewrite <- Zpow_nat; lia|]. split; [|exact Hd]. destruct (Z.le_gt_cases (2 ^ e) (Z.of_nat l)) as [|Hlt]; [assumption|]. rewrite Z.div_small in Hd by lia. discriminate. }
    assert (ND : forall L, NoDup L -> (forall l, In l L -> 2 ^ e <= Z.of_nat l) -> NoDup (map (fun l => (l - Z.to_nat (2 ^ e))%nat) L)).
    { induction L as [|x L IH]; intros HN HK; [constructor|]. inversion HN; subst. cbn [map]. constructor; [|apply IH; [assumption|intros l Hl; apply HK; right; exact Hl]].
      intros Hin. apply in_map_iff in Hin. destruct Hin as (z & Ez & Hz). pose proof (HK x (or_introl eq_refl)). pose proof (HK z (or_intror Hz)). assert (z = x) by lia. subst z. contradiction. }
    apply NoDup_incl_length; [apply ND; [apply NoDup_filter, seq_NoDup|intros l Hl; apply K in Hl; lia]|].
    intros x Hx. apply in_map_iff in Hx. destruct Hx as (l & <- & Hl). apply K in Hl. destruct Hl as (H1 & H2 & H3). apply filter_In. split.
    - apply in_seq. split; [lia|]. apply Nat2Z.inj_lt. rewrite Nat.add_0_l, Zpow_nat. lia.
    - apply Z.eqb_eq. unfold digit. fold e. rewrite Nat2Z.inj_sub by lia. rewrite Z2Nat.id by lia. replace (Z.of_nat l - 2 ^ e) with (Z.of_nat l + (-1) * 2 ^ e) by ring. rewrite Z.div_add by lia. Z.div_mod_to_equations; lia. }
  assert (Hpow : (2 ^ w = 2 * 2 ^ (w - 1))%nat) by (replace w with (S (w - 1)) at 1 by lia; reflexivity).
  change (length (F t) = (2 ^ (w - 1))%nat). destruct Ht as [-> | ->]; lia.
Qed.

Lemma Rsum_between (f : nat -> R) (L : list nat) l0 (m : R) : In l0 L -> f l0 = m -> (forall l, In l L -> (0 < f l <= m)%R) -> (m <= Rsum (map f L) <= INR (length L) * m)%R.
Proof.
  intros Hi Hm Hb. split.
  - revert Hi Hb. induction L as [|x L IH]; intros Hi Hb; [destruct Hi|]. unfold Rsum in *. cbn [map fold_right]. assert (P : (0 <= fold_right Rplus 0 (map f L))%R) by (apply Rsum_nonneg; intros z Hz; apply in_map_iff in Hz; destruct Hz as (l & <- & Hl); left; apply Hb; right; exact Hl).
    destruct Hi as [->|Hi]; [lra|]. pose proof (Hb x (or_introl eq_refl)). assert (m <= fold_right Rplus 0 (map f L))%R by (apply IH; [exact Hi|intros l Hl; apply Hb; right; exact Hl]). lra.
  - clear Hi Hm l0. induction L as [|x L IH]; [unfold Rsum; cbn; lra|]. unfold Rsum in *. cbn [map fold_right]. cbn [length]. rewrite S_INR. pose proof (Hb x (or_introl eq_refl)). assert (fold_right Rplus 0 (map f L) <= INR (length L) * m)%R by (apply IH; intros l Hl; apply Hb; right; exact Hl). lra.
Qed.

Lemma likelihood_bounds pts w y v j t m : (0 < v)%R -> (j < w)%nat -> t = 0 \/ t = 1 -> nearest_bit pts w y j t m ->
  (exp (- m / v) <= likelihood pts w y v j t <= INR (2 ^ (w - 1)) * exp (- m / v))%R.
Proof.
  intros Hv Hj Ht ((l0 & H0 & D0 & E0) & Hm). unfold likelihood. rewrite <- (digit_count w j t Hj Ht).
  apply (Rsum_between (fun l => exp (- Cnorm2 (y - nth l pts C0)%C / v)) _ l0).
  - apply filter_In. split; [apply in_seq; lia|apply Z.eqb_eq; exact D0].
  - rewrite E0. reflexivity.
  - intros l Hl. apply filter_In in Hl. destruct Hl as [Hl Hd]. apply in_seq in Hl. apply Z.eqb_eq in Hd. split; [apply exp_pos|]. specialize (Hm l ltac:(lia) Hd).
    assert (Hle : (- Cnorm2 (y - nth l pts C0)%C / v <= - m / v)%R) by (unfold Rdiv; apply Rmult_le_compat_r; [left; apply Rinv_0_lt_compat; exact Hv|lra]).
    destruct Hle as [Hlt|Heq]; [left; apply exp_increasing; exact Hlt|right; rewrite Heq; reflexivity].
Qed.
Lemma ln_le x y : (0 < x)%R -> (x <= y)%R -> (ln x <= ln y)%R.
Proof. intros Hx [H|H]; [left; apply ln_increasing; assumption|right; rewrite H; reflexivity]. Qed.
Lemma max_log_bound pts w y v j m0 m1 : (0 < v)%R -> (j < w)%nat -> nearest_bit pts w y j 0 m0 -> nearest_bit pts w y j 1 m1 ->
  (Rabs (ln (likelihood pts w y v j 1 / likelihood pts w y v j 0) - (m0 - m1) / v) <= ln (INR (2 ^ (w - 1))))%R.
Proof.
  intros Hv Hj N0 N1. pose proof (likelihood_bounds _ _ _ _ _ _ _ Hv Hj (or_introl eq_refl) N0) as [A0 B0]. pose proof (likelihood_bounds _ _ _ _ _ _ _ Hv Hj (or_intror eq_refl) N1) as [A1 B1].
  set (l0 := likelihood pts w y v j 0) in *. set (l1 := likelihood pts w y v j 1) in *. assert (HM : (0 < INR (2 ^ (w - 1)))%R) by (apply lt_0_INR; pose proof (pow2_pos (w - 1)); lia). set (M := INR (2 ^ (w - 1))) in *.
  pose proof (exp_pos (- m0 / v)) as E0. pose proof (exp_pos (- m1 / v)) as E1.
  assert (X : forall m, ln (exp (- m / v)) = (- m / v)%R) by (intros; apply ln_exp).
  assert (Y : forall m, ln (M * exp (- m / v)) = (ln M + - m / v)%R) by (intros; rewrite ln_mult by (try assumption; apply exp_pos); rewrite X; reflexivity).
  assert (P0 : (0 < l0)%R) by lra. assert (P1 : (0 < l1)%R) by lra.
  assert (Ed : ln (l1 / l0) = (ln l1 - ln l0)%R) by (unfold Rdiv; rewrite ln_mult by (try assumption; apply Rinv_0_lt_compat; assumption); rewrite ln_Rinv by assumption; ring).
  pose proof (ln_le _ _ E0 A0) as Q1. pose proof (ln_le _ _ P0 B0) as Q2. pose proof (ln_le _ _ E1 A1) as Q3. pose proof (ln_le _ _ P1 B1) as Q4. rewrite X in Q1, Q3. rewrite Y in Q2, Q4.
  rewrite Ed. replace ((m0 - m1) / v)%R with (- m1 / v - - m0 / v)%R by (field; lra). apply Rabs_le. lra.
Qed.

(* ---------------------------------------------------------------- signs of the soft outputs *)
Lemma argmin_exists (f : nat -> R) (L : list nat) : L <> [] -> exists l, In l L /\ forall k, In k L -> (f l <= f k)%R.
Proof.
  induction L as [|x L IH]; intros H; [congruence|]. destruct L as [|y L].
  - exists x. split; [left; reflexivity|]. intros k [->|[]]. lra.
  - destruct (IH ltac:(discriminate)) as (l & Hl & Hm). destruct (Rle_dec (f x) (f l)) as [Hc|Hc].
    + exists x. split; [left; reflexivity|]. intros k [->|Hk]; [lra|]. specialize (Hm k Hk). lra.
    + exists l. split; [right; exact Hl|]. intros k [->|Hk]; [lra|]. apply Hm, Hk.
Qed.
Lemma nearest_exists pts w y j t : (j < w)%nat -> t = 0 \/ t = 1 -> exists m, nearest_bit pts w y j t m.
Proof.
  intros Hj Ht. destruct (argmin_exists (fun l => Cnorm2 (y - nth l pts C0)%C) (filter (fun l => digit w l j =? t) (seq 0 (2 ^ w)))) as (l & Hl & Hm).
  - intros E. pose proof (digit_count w j t Hj Ht) as D. rewrite E in D. cbn in D. pose proof (pow2_pos (w - 1)). lia.
  - apply filter_In in Hl. destruct Hl as [Hl Hd]. apply in_seq in Hl. apply Z.eqb_eq in Hd. exists (Cnorm2 (y - nth l pts C0)%C). split; [exists l; repeat split; [lia|exact Hd]|].
    intros k Hk Dk. apply Hm. apply filter_In. split; [apply in_seq; lia|apply Z.eqb_eq; exact Dk].
Qed.
(* the true label l has bit t at place j, every other point is at least d away from it, y is within r of it *)
Lemma llr_margin pts w y v j l d r : (0 < v)%R -> (j < w)%nat -> (l < 2 ^ w)%nat -> (0 < d)%R -> (forall k, (k < 2 ^ w)%nat -> k <> l -> (d <= Cabs (nth k pts C0 - nth l pts C0)%C)%R) ->
  (Cabs (y - nth l pts C0)%C <= r)%R -> (v * ln (INR (2 ^ (w - 1))) < d * (d - 2 * r))%R ->
  let L := ln (likelihood pts w y v j 1 / likelihood pts w y v j 0) in (digit w l j = 1 -> (0 < L)%R) /\ (digit w l j = 0 -> (L < 0)%R).
Proof.
  intros Hv Hj Hl Hd Hmin Hr Hm L. destruct (nearest_exists pts w y j 0 Hj (or_introl eq_refl)) as (m0 & N0). destruct (nearest_exists pts w y j 1 Hj (or_intror eq_refl)) as (m1 & N1).
  pose proof (max_log_bound _ _ _ _ _ _ _ Hv Hj N0 N1) as B. fold L in B. set (K := ln (INR (2 ^ (w - 1)))) in *.
  assert (HK : (0 <= K)%R). { unfold K. rewrite <- ln_1. apply ln_le; [lra|]. apply (le_INR 1). pose proof (pow2_pos (w - 1)). lia. }
  set (rho := Cabs (y - nth l pts C0)%C) in *. assert (Hrho : (0 <= rho)%R) by apply Cabs_nonneg.
  assert (Hvk : (0 <= v * K)%R) by (apply Rmult_le_pos; lra). assert (H2r : (0 < d - 2 * r)%R) by nra.
  assert (Far : forall k, (k < 2 ^ w)%nat -> k <> l -> ((d - rho) * (d - rho) <= Cnorm2 (y - nth k pts C0)%C)%R).
  { intros k Hk Hne. specialize (Hmin k Hk Hne). rewrite <- Cabs_sqr. assert (T : (Cabs (nth k pts C0 - nth l pts C0)%C <= Cabs (y - nth k pts C0)%C + rho)%R).
    { unfold rho. rewrite (Cabs_sub y (nth k pts C0)). replace (nth k pts C0 - nth l pts C0)%C with ((nth k pts C0 - y) + (y - nth l pts C0))%C by creal. apply Cabs_triang. }
    apply Rmult_le_compat; lra. }
  assert (Own : Cnorm2 (y - nth l pts C0)%C = (rho * rho)%R) by (symmetry; apply Cabs_sqr).
  apply Rabs_le_between in B || (unfold Rabs in B; destruct (Rcase_abs _) in B).
  all: assert (Q : forall t m m', nearest_bit pts w y j t m -> nearest_bit pts w y j (1 - t) m' -> digit w l j = t -> (v * K < m' - m)%R) by
   (intros t m m' (_ & Hm1) ((k & K1 & K2 & K3) & _) Hdig; specialize (Hm1 l Hl Hdig); assert (Hne : k <> l) by (intros ->; lia); specialize (Far k K1 Hne); rewrite K3 in Far; rewrite Own in Hm1; nra).
  all: assert (DV : forall a, (v * K < a)%R -> (K < a / v)%R) by (intros a Ha; apply (Rmult_lt_reg_l v); [exact Hv|]; replace (v * (a / v))%R with a by (field; lra); exact Ha).
  all: split; intros Hdig.
  all: try (pose proof (DV _ (Q 1 m1 m0 N1 N0 Hdig)) as X; lra).
  all: try (pose proof (DV _ (Q 0 m0 m1 N0 N1 Hdig)) as X; replace ((m0 - m1) / v)%R with (- ((m1 - m0) / v))%R in B by (field; lra); lra).
  all: try (pose proof (DV _ (Q 0 m0 m1 N0 N1 Hdig)) as X; replace ((m0 - m1) / v)%R with (- ((m1 - m0) / v))%R in * by (field; lra); lra).
Qed.

Lemma Forall2_len {A B} (P : A -> B -> Prop) l l' : Forall2 P l l' -> length l = length l'.
Proof. induction 1; cbn; congruence. Qed.
Lemma Forall2_nth {A B} (P : A -> B -> Prop) l l' : Forall2 P l l' -> forall i a b, (i < length l)%nat -> P (nth i l a) (nth i l' b).
Proof. induction 1 as [|x y l l' Hxy HF IH]; intros i a b Hi; [cbn in Hi; lia|]. destruct i as [|i]; [exact Hxy|]. cbn [nth]. apply IH. cbn in Hi. lia. Qed.
Lemma symbol_digits md bs k j : wf md -> bits bs -> (1 <= num_bits md)%nat -> (length bs mod num_bits md = 0)%nat -> (k * num_bits md + j < length bs)%nat -> (j < num_bits md)%nat ->
  digit (num_bits md) (label md bs k) j = nth (k * num_bits md + j) bs 0.
Proof.
  intros HW Hb Hn Hmod Hk Hj. set (b := num_bits md) in *. assert (HL : length bs = (b * (length bs / b))%nat) by (pose proof (Nat.div_mod (length bs) b ltac:(lia)); lia).
  assert (Hkn : (k < length bs / b)%nat) by (apply Nat.nle_gt; intros Hc; assert (length bs / b * b <= k * b)%nat by (apply Nat.mul_le_mono_r; exact Hc); lia).
  assert (Hfull : (k * b + b <= length bs)%nat) by (assert ((k + 1) * b <= length bs / b * b)%nat by (apply Nat.mul_le_mono_r; lia); lia).
  assert (Hg : length (group md bs k) = b) by (unfold group, slice; fold b; rewrite firstn_length, skipn_length; lia).
  pose proof (proj2 (label_range md bs k HW Hb)) as EL. pose proof (bits_msb_short b (group md bs k) (bits_slice bs _ _ Hb) ltac:(lia)) as EB. rewrite Hg, Nat.sub_diag in EB. cbn [repeat app] in EB. rewrite <- EL in EB.
  transitivity (nth j (group md bs k) 0).
  - rewrite <- EB, bits_msb_nth by exact Hj. unfold digit. symmetry. apply Z.testbit_spec'. lia.
  - unfold group. fold b. rewrite slice_nth by lia. reflexivity.
Qed.

Lemma soft_signs md bs s ys v d r : wf md -> NoDup (points md) -> (1 <= num_bits md)%nat -> bits bs -> bs <> [] -> (length bs mod num_bits md = 0)%nat -> modulate md bs = Ok s -> (0 < v)%R -> (0 < d)%R ->
  (forall p p', In p (points md) -> In p' (points md) -> p <> p' -> (d <= Cabs (p - p')%C)%R) -> Forall2 (fun x y => (Cabs (y - x)%C <= r)%R) s ys ->
  (v * ln (INR (2 ^ (num_bits md - 1))) < d * (d - 2 * r))%R ->
  exists out, demodulate md ys Soft v = Ok (inr out) /\ length out = length bs /\ forall i, (i < length bs)%nat -> (nth i bs 0 = 1 -> (0 < nth i out 0)%R) /\ (nth i bs 0 = 0 -> (nth i out 0 < 0)%R).
Proof.
  intros HW ND Hn Hb Hne Hmod Em Hv Hd Hmin HF Hm. rewrite modulate_ok in Em by assumption. injection Em as <-. set (b := num_bits md) in *.
  assert (HL : length bs = (b * (length bs / b))%nat) by (pose proof (Nat.div_mod (length bs) b ltac:(lia)); lia). set (n := (length bs / b)%nat) in *.
  assert (HC : count md bs = n). { unfold count. fold b. symmetry. apply (Nat.div_unique _ _ _ (b - 1)); lia. }
  assert (Hys : length ys = n) by (rewrite <- (Forall2_len _ _ _ HF), map_length, seq_length; exact HC).
  destruct (soft_full md ys v HW) as (out & E1 & L1 & HQ). exists out. split; [exact E1|]. split; [rewrite L1, Hys; fold b; lia|]. intros i Hi.
  pose proof (Nat.div_mod i b ltac:(lia)) as Hdm. set (q := (i / b)%nat) in *. set (j := (i mod b)%nat) in *. assert (Hj : (j < b)%nat) by (apply Nat.mod_upper_bound; lia). assert (Hq : (q < n)%nat) by nia.
  specialize (HQ q j ltac:(lia) Hj). cbv zeta in HQ. destruct HQ as (_ & _ & HQ). fold b in HQ. replace (q * b + j)%nat with i in HQ by lia. rewrite HQ.
  assert (ED : digit b (label md bs q) j = nth i bs 0). { unfold b at 1. rewrite (symbol_digits md bs q j) by (try assumption; fold b; lia). fold b. f_equal. lia. } rewrite <- ED.
  apply (llr_margin (points md) b (nth q ys C0) v j (label md bs q) d r); try assumption.
  - unfold b. rewrite <- (proj1 HW). apply label_range; assumption.
  - intros k Hk Hkl. unfold b in Hk. rewrite <- (proj1 HW) in Hk. assert (Hl := proj1 (label_range md bs q HW Hb)). apply Hmin; [apply nth_In, Hk|apply nth_In, Hl|]. intros E. apply Hkl. apply (NoDup_nth (points md) C0); assumption.
  - assert (F := Forall2_nth _ _ _ HF q C0 C0). rewrite map_length, seq_length, HC in F. specialize (F Hq).
    rewrite (nth_indep (map _ _) C0 ((fun k => nth (label md bs k) (points md) C0) 0%nat)) in F by (rewrite map_length, seq_length; lia). rewrite (map_nth (fun k => nth (label md bs k) (points md) C0)) in F. rewrite seq_nth in F by lia. exact F.
Qed.

(* Soft demodulation, PSK and QAM constellations. *)
From Coq Require Import Permutation.
From Verif Require Import Base UtilModel UtilProofs Cplx ModemModel ModemSpec GrayProofs ModemProofs.
Open Scope Z_scope.

(* ---------------------------------------------------------------- soft demodulation *)
Lemma inner_writes : forall (f : nat -> R) base nb n out, (n <= nb)%nat -> (base + nb <= length out)%nat ->
  let r := fold_left (fun out t => upd out (base + nb - 1 - t) (f t)) (seq 0 n) out in
  length r = length out /\ forall p, nth p r 0%R = if (base + nb - n <=? p)%nat && (p <? base + nb)%nat then f (base + nb - 1 - p)%nat else nth p out 0%R.
Proof.
  intros f base nb n. induction n as [|n IH]; intros out Hn HL r.
  - unfold r. cbn [seq fold_left]. split; [reflexivity|]. intros p. replace ((base + nb - 0 <=? p)%nat && (p <? base + nb)%nat) with false by lia. reflexivity.
  - unfold r. rewrite seq_S, fold_left_app. cbn [fold_left]. destruct (IH out ltac:(lia) HL) as (H1 & H2). cbv zeta in H1, H2. rewrite upd_length. split; [exact H1|]. intros p. rewrite nth_upd, H1, H2.
    rewrite Nat.add_0_l. destruct (Nat.eqb_spec p (base + nb - 1 - n)) as [->|Hne].
    + replace (base + nb - 1 - n <? length out)%nat with true by lia. cbn [andb]. replace ((base + nb - S n <=? base + nb - 1 - n)%nat && (base + nb - 1 - n <? base + nb)%nat) with true by lia. f_equal. lia.
    + cbn [andb]. replace ((base + nb - S n <=? p)%nat) with ((base + nb - n <=? p)%nat) by lia. reflexivity.
Qed.

Lemma soft_writes : forall (f : nat -> nat -> R) nb N n out, (n <= N)%nat -> length out = (N * nb)%nat ->
  let r := fold_left (fun out i => fold_left (fun out t => upd out (i * nb + nb - 1 - t) (f i t)) (seq 0 nb) out) (seq 0 n) out in
  length r = length out /\ forall i j, (i < n)%nat -> (j < nb)%nat -> nth (i * nb + j) r 0%R = f i (nb - 1 - j)%nat.
Proof.
  intros f nb N n. induction n as [|n IH]; intros out Hn HL r; unfold r; [split; [reflexivity|intros; lia]|].
  rewrite seq_S, fold_left_app. cbn [fold_left]. rewrite Nat.add_0_l. destruct (IH out ltac:(lia) HL) as (H1 & H2). cbv zeta in H1, H2. set (m := fold_left _ (seq 0 n) out) in *.
  assert (Hb : (n * nb + nb <= length m)%nat) by (rewrite H1, HL; nia).
  destruct (inner_writes (f n) (n * nb) nb nb m ltac:(lia) Hb) as (K1 & K2). cbv zeta in K1, K2. split; [rewrite K1; exact H1|]. intros i j Hi Hj. rewrite K2. destruct (Nat.eq_dec i n) as [->|Hne].
  - replace ((n * nb + nb - nb <=? n * nb + j)%nat && (n * nb + j <? n * nb + nb)%nat) with true by lia. f_equal. lia.
  - assert (i * nb + nb <= n * nb)%nat by nia. replace ((n * nb + nb - nb <=? i * nb + j)%nat) with false by lia. cbn [andb]. apply H2; lia.
Qed.

Lemma filter_map : forall {A B} (P : B -> bool) (g : A -> B) l, filter P (map g l) = map g (filter (fun x => P (g x)) l).
Proof. intros A B P g l. induction l as [|x l IH]; cbn [map filter]; [reflexivity|]. rewrite IH. destruct (P (g x)); reflexivity. Qed.

Lemma sums_fold : forall {A} (P : A -> bool) (e : A -> R) l acc,
  fold_left (fun acc x => if P x then (fst acc + e x, snd acc)%R else (fst acc, snd acc + e x)%R) l acc =
  (fst acc + Rsum (map e (filter P l)), snd acc + Rsum (map e (filter (fun x => negb (P x)) l)))%R.
Proof.
  intros A P e l. induction l as [|x l IH]; intros acc; cbn [fold_left filter map].
  - unfold Rsum; cbn [fold_right]. rewrite !Rplus_0_r. destruct acc; reflexivity.
  - rewrite IH. destruct (P x); cbn [fst snd negb map]; unfold Rsum; cbn [fold_right]; f_equal; lra.
Qed.

Lemma combine_seq_nth : forall (pts : list C), combine (seq 0 (length pts)) pts = map (fun l => (l, nth l pts C0)) (seq 0 (length pts)).
Proof.
  intros pts. apply (nth_ext _ _ (0%nat, C0) (0%nat, C0)); [rewrite combine_length, map_length, seq_length; lia|]. intros i Hi. rewrite combine_length, seq_length, Nat.min_id in Hi.
  rewrite combine_nth by apply seq_length. rewrite (nth_indep (map _ _) _ ((fun l => (l, nth l pts C0)) 0%nat)) by (rewrite map_length, seq_length; exact Hi). rewrite (map_nth (fun l => (l, nth l pts C0))). rewrite !seq_nth by exact Hi. reflexivity.
Qed.

Lemma bit_test : forall w l j, (j < w)%nat -> (Z.land (Z.shiftr (Z.of_nat l) (Z.of_nat (w - 1 - j))) 1 =? 1) = (digit w l j =? 1).
Proof.
  intros w l j Hj. unfold digit. change 1 with (Z.ones 1) at 1. rewrite Z.land_ones by lia. rewrite Z.shiftr_div_pow2 by lia. change (2 ^ 1) with 2. do 4 f_equal. lia.
Qed.
Lemma digit_bit : forall w l j, digit w l j = 0 \/ digit w l j = 1.
Proof. intros. unfold digit. pose proof (Z.mod_pos_bound (Z.of_nat l / 2 ^ (Z.of_nat w - 1 - Z.of_nat j)) 2 ltac:(lia)). lia. Qed.

Lemma llr_sums_ok : forall md y v j, wf md -> (j < num_bits md)%nat ->
  llr_sums md y v (num_bits md - 1 - j) = (likelihood (points md) (num_bits md) y v j 1, likelihood (points md) (num_bits md) y v j 0).
Proof.
  intros md y v j (HW & _) Hj. unfold llr_sums. cbv zeta.
  rewrite (sums_fold (fun ls => Z.land (Z.shiftr (Z.of_nat (fst ls)) (Z.of_nat (num_bits md - 1 - j))) 1 =? 1) (fun ls : nat * C => exp (- (Cabs (y - snd ls)%C * Cabs (y - snd ls)%C) / v))). cbn [fst snd]. rewrite !Rplus_0_l.
  rewrite combine_seq_nth, !filter_map, !map_map. unfold likelihood. rewrite <- HW. f_equal; f_equal.
  - rewrite (filter_ext _ (fun l => digit (num_bits md) l j =? 1)); [apply map_ext; intros l; cbn [snd]; rewrite Cabs_sqr; reflexivity|]. intros l. cbn [fst]. apply bit_test. exact Hj.
  - rewrite (filter_ext _ (fun l => digit (num_bits md) l j =? 0)); [apply map_ext; intros l; cbn [snd]; rewrite Cabs_sqr; reflexivity|]. intros l. cbn [fst]. rewrite bit_test by exact Hj. destruct (digit_bit (num_bits md) l j) as [->| ->]; reflexivity.
Qed.

Lemma likelihood_pos : forall pts w y v j t, (j < w)%nat -> t = 0 \/ t = 1 -> (0 < likelihood pts w y v j t)%R.
Proof.
  intros pts w y v j t Hj Ht. unfold likelihood. set (l := Z.to_nat (t * 2 ^ (Z.of_nat w - 1 - Z.of_nat j))).
  assert (Hin : In l (filter (fun l => digit w l j =? t) (seq 0 (2 ^ w)))).
  { assert (Hp : 0 < 2 ^ (Z.of_nat w - 1 - Z.of_nat j)) by (apply Z.pow_pos_nonneg; lia). assert (Hl : Z.of_nat l = t * 2 ^ (Z.of_nat w - 1 - Z.of_nat j)) by (unfold l; rewrite Z2Nat.id; nia).
    apply filter_In. split.
    - apply in_seq. split; [lia|]. apply Nat2Z.inj_lt. rewrite Nat.add_0_l, Zpow_nat, Hl. assert (2 ^ (Z.of_nat w - 1 - Z.of_nat j) < 2 ^ Z.of_nat w) by (apply Z.pow_lt_mono_r; lia). nia.
    - apply Z.eqb_eq. unfold digit. rewrite Hl, Z.div_mul by lia. destruct Ht as [-> | ->]; reflexivity. }
  revert Hin. generalize (filter (fun l => digit w l j =? t) (seq 0 (2 ^ w))). intros L. induction L as [|x L IH]; intros Hin; [destruct Hin|]. cbn [map]. unfold Rsum in *. cbn [fold_right].
  assert (0 <= fold_right Rplus 0 (map (fun l0 => exp (- Cnorm2 (y - nth l0 pts C0)%C / v)) L))%R. { apply Rsum_nonneg. intros z Hz. apply in_map_iff in Hz as (q & <- & _). left. apply exp_pos. }
  pose proof (exp_pos (- Cnorm2 (y - nth x pts C0)%C / v)). lra.
Qed.

Lemma soft_full : forall md ys v, wf md -> exists out, demodulate md ys Soft v = Ok (inr out) /\ length out = (length ys * num_bits md)%nat /\
  forall q j, (q < length ys)%nat -> (j < num_bits md)%nat ->
    let like := likelihood (points md) (num_bits md) (nth q ys C0) v j in
    (0 < like 1%Z)%R /\ (0 < like 0%Z)%R /\ nth (q * num_bits md + j) out 0%R = ln (like 1%Z / like 0%Z)%R.
Proof.
  intros md ys v HW. exists (demod_soft md ys v). split; [reflexivity|]. unfold demod_soft. set (g := fun i t => let '(num, den) := llr_sums md (nth i ys C0) v t in ln (num / den)).
  destruct (soft_writes g (num_bits md) (length ys) (length ys) (repeat 0%R (length ys * num_bits md)) ltac:(lia) ltac:(apply repeat_length)) as (H1 & H2). cbv zeta in H1, H2.
  match goal with |- length ?a = _ /\ _ => match type of H1 with length ?b = _ => replace a with b end end.
  2:{ f_equal. apply FunctionalExtensionality.functional_extensionality. intros out. apply FunctionalExtensionality.functional_extensionality. intros i. f_equal. apply FunctionalExtensionality.functional_extensionality. intros o. apply FunctionalExtensionality.functional_extensionality. intros t. unfold g. destruct (llr_sums _ _ _ _). reflexivity. }
  split; [rewrite H1; apply repeat_length|]. intros q j Hq Hj. cbv zeta. rewrite H2 by assumption. unfold g. rewrite llr_sums_ok by assumption. repeat split; apply likelihood_pos; auto.
Qed.

(* ---------------------------------------------------------------- PSK *)
Lemma psk_length : forall m, length (psk_points m) = m.
Proof. intros m. unfold psk_points. rewrite map_length, seq_length. reflexivity. Qed.
Lemma psk_nth : forall m k, (k < m)%nat -> nth k (psk_points m) C0 = cis (INR k * (2 * PI / INR m)).
Proof. intros m k Hk. unfold psk_points. rewrite (nth_indep _ C0 ((fun k => cis (INR k * (2 * PI / INR m))) 0%nat)) by (rewrite map_length, seq_length; exact Hk). rewrite (map_nth (fun k => cis (INR k * (2 * PI / INR m)))). rewrite seq_nth by exact Hk. reflexivity. Qed.
Lemma psk_nodup : forall m, NoDup (psk_points m).
Proof.
  intros m. apply (NoDup_nth _ C0). rewrite psk_length. intros i j Hi Hj E. rewrite !psk_nth in E by assumption. apply cis_eq in E as [k Hk].
  assert (Hm : (0 < INR m)%R) by (apply lt_0_INR; lia). assert (Hpi := PI_RGT_0).
  assert (E1 : (INR i = INR j + INR m * IZR k)%R). { apply (Rmult_eq_reg_r (2 * PI / INR m)); [rewrite Hk; field; lra|]. apply Rgt_not_eq. apply Rdiv_lt_0_compat; lra. }
  rewrite !INR_IZR_INZ, <- mult_IZR, <- plus_IZR in E1. apply eq_IZR in E1. assert (k = 0) by nia. subst k. lia.
Qed.
Lemma psk_power : forall m, Rsum (map Cnorm2 (psk_points m)) = INR m.
Proof. intros m. unfold psk_points. rewrite map_map. rewrite (Rsum_map_ext _ (fun _ => 1%R)) by (intros; apply Cnorm2_cis). rewrite Rsum_const, seq_length. lra. Qed.

(* ---------------------------------------------------------------- QAM *)
Lemma pam_length : forall n, length (pam n) = n.
Proof. intros n. unfold pam. rewrite map_length, seq_length. reflexivity. Qed.
Lemma pam_nth : forall n i d, (i < n)%nat -> nth i (pam n) d = (2 * INR i - INR n + 1)%R.
Proof. intros n i d Hi. unfold pam. rewrite (nth_indep _ d ((fun i => (2 * INR i - INR n + 1)%R) 0%nat)) by (rewrite map_length, seq_length; exact Hi). rewrite (map_nth (fun i => (2 * INR i - INR n + 1)%R)). rewrite seq_nth by exact Hi. reflexivity. Qed.

Definition amp (n i : nat) : R := (2 * INR i - INR n + 1)%R.

Lemma qam_ok : forall h, let n := (2 * h)%nat in exists c, qam_points n = Ok c /\ length c = (n * n)%nat /\
  forall a b, (a < n)%nat -> (b < n)%nat -> nth (a * n + b) c C0 = mkC (amp n a) (amp n (if Nat.even a then b else n - 1 - b)).
Proof.
  intros h n. unfold qam_points. replace (n / 2)%nat with h by (unfold n; rewrite Nat.mul_comm, Nat.div_mul; lia).
  set (A := concat (repeat (pam n ++ rev (pam n)) h)). set (B := flat_map (fun x => repeat x n) (pam n)).
  assert (U1 : forall x, In x (repeat (pam n ++ rev (pam n)) h) -> length x = (2 * n)%nat) by (intros x Hx; apply repeat_spec in Hx; subst x; rewrite app_length, rev_length, pam_length; lia).
  assert (U2 : forall x, In x (map (fun x => repeat x n) (pam n)) -> length x = n) by (intros x Hx; apply in_map_iff in Hx as (y & <- & _); apply repeat_length).
  assert (HA : length A = (n * n)%nat) by (unfold A; rewrite (concat_length_uniform (2 * n) _ U1), repeat_length; unfold n; lia).
  assert (EB : B = concat (map (fun x => repeat x n) (pam n))) by (unfold B; apply flat_map_concat_map).
  assert (HB : length B = (n * n)%nat) by (rewrite EB, (concat_length_uniform n _ U2), map_length, pam_length; lia).
  unfold np_broadcast2. replace (length A =? length B)%nat with true by (symmetry; apply Nat.eqb_eq; congruence). cbn [bind]. eexists. split; [reflexivity|]. split; [rewrite map_length, combine_length; lia|].
  intros a b Ha Hb. assert (Hi : (a * n + b < n * n)%nat) by nia.
  rewrite (nth_indep _ C0 ((fun ba => mkC (snd ba) (fst ba)) (0, 0)%R)) by (rewrite map_length, combine_length; lia). rewrite (map_nth (fun ba => mkC (snd ba) (fst ba))). rewrite combine_nth by congruence. cbn [fst snd].
  apply C_ext; cbn [re im].
  - rewrite EB, (concat_nth_uniform 0%R n) by assumption. rewrite (nth_indep _ [] ((fun x => repeat x n) 0%R)) by (rewrite map_length, pam_length; exact Ha). rewrite (map_nth (fun x => repeat x n)). rewrite nth_repeat_lt by exact Hb. apply pam_nth. exact Ha.
  - unfold A. pose proof (Nat.div_mod a 2 ltac:(lia)) as D. pose proof (Nat.mod_upper_bound a 2 ltac:(lia)) as Dm. replace (a * n + b)%nat with (a / 2 * (2 * n) + (a mod 2 * n + b))%nat by nia.
    rewrite (concat_nth_uniform 0%R (2 * n)) by (try assumption; destruct (a mod 2)%nat as [|[|]]; lia). rewrite nth_repeat_lt by (unfold n in *; lia).
    destruct (Nat.even a) eqn:Ev.
    + assert (a mod 2 = 0)%nat as -> by (apply Nat.even_spec in Ev as [q ->]; rewrite Nat.mul_comm, Nat.mod_mul; lia). rewrite app_nth1 by (rewrite pam_length; lia). rewrite pam_nth by lia. unfold amp. f_equal.
    + assert (a mod 2 = 1)%nat as ->. { assert (O : Nat.odd a = true) by (unfold Nat.odd; rewrite Ev; reflexivity). apply Nat.odd_spec in O as [q ->]. rewrite Nat.add_comm, Nat.mul_comm, Nat.mod_add; reflexivity || lia. }
      rewrite app_nth2 by (rewrite pam_length; lia). rewrite pam_length. replace (1 * n + b - n)%nat with b by lia. rewrite rev_nth by (rewrite pam_length; exact Hb). rewrite pam_length, pam_nth by lia. unfold amp. do 4 f_equal. lia.
Qed.

Lemma qam_odd : forall h, (1 <= h)%nat -> qam_points (2 * h + 1) = Err ValueError.
Proof.
  intros h Hh. set (n := (2 * h + 1)%nat). unfold qam_points. replace (n / 2)%nat with h by (apply (Nat.div_unique _ _ h 1); unfold n; lia).
  set (A := concat (repeat (pam n ++ rev (pam n)) h)). set (B := flat_map (fun x => repeat x n) (pam n)).
  assert (U1 : forall x, In x (repeat (pam n ++ rev (pam n)) h) -> length x = (2 * n)%nat) by (intros x Hx; apply repeat_spec in Hx; subst x; rewrite app_length, rev_length, pam_length; lia).
  assert (U2 : forall x, In x (map (fun x => repeat x n) (pam n)) -> length x = n) by (intros x Hx; apply in_map_iff in Hx as (y & <- & _); apply repeat_length).
  assert (HA : length A = (2 * n * h)%nat) by (unfold A; rewrite (concat_length_uniform (2 * n) _ U1), repeat_length; lia).
  assert (HB : length B = (n * n)%nat) by (unfold B; rewrite flat_map_concat_map, (concat_length_uniform n _ U2), map_length, pam_length; lia).
  unfold np_broadcast2. replace (length A =? length B)%nat with false by (symmetry; apply Nat.eqb_neq; rewrite HA, HB; unfold n; nia).
  destruct A as [|x [|x' A]]; cbn [length] in HA; [unfold n in HA; nia|unfold n in HA; nia|]. destruct B as [|z [|z' B]]; cbn [length] in HB; [unfold n in HB; nia|unfold n in HB; nia|]. reflexivity.
Qed.

Lemma NoDup_by_nth2 : forall (c : list C) n, length c = (n * n)%nat -> (forall a b a' b', (a < n)%nat -> (b < n)%nat -> (a' < n)%nat -> (b' < n)%nat -> nth (a * n + b) c C0 = nth (a' * n + b') c C0 -> a = a' /\ b = b') -> NoDup c.
Proof.
  intros c n HL H. apply (NoDup_nth _ C0). intros i j Hi Hj E. rewrite HL in Hi, Hj. assert (Hn : n <> 0%nat) by (intros ->; lia).
  rewrite (Nat.div_mod i n Hn), (Nat.div_mod j n Hn), !(Nat.mul_comm n) in E. apply H in E as (E1 & E2); try (apply Nat.mod_upper_bound; exact Hn); try (apply Nat.div_lt_upper_bound; lia).
  rewrite (Nat.div_mod i n Hn), (Nat.div_mod j n Hn), E1, E2. reflexivity.
Qed.

Lemma amp_inj : forall n i j, amp n i = amp n j -> i = j.
Proof. intros n i j H. unfold amp in H. apply INR_eq. lra. Qed.

Lemma qam_nodup : forall h c, qam_points (2 * h) = Ok c -> NoDup c.
Proof.
  intros h c E. destruct (qam_ok h) as (c' & E' & HL & HN). rewrite E' in E. injection E as ->. set (n := (2 * h)%nat) in *. apply (NoDup_by_nth2 c n HL). intros a b a' b' Ha Hb Ha' Hb' H. rewrite !HN in H by assumption.
  injection H as H1 H2. apply amp_inj in H1. subst a'. apply amp_inj in H2. split; [reflexivity|]. destruct (Nat.even a); lia.
Qed.

Lemma Rsum_seq_mul : forall (f : nat -> R) n m, Rsum (map f (seq 0 (m * n))) = Rsum (map (fun a => Rsum (map (fun b => f (a * n + b)%nat) (seq 0 n))) (seq 0 m)).
Proof.
  intros f n m. induction m as [|m IH]; [reflexivity|]. replace (S m * n)%nat with (m * n + n)%nat by lia. rewrite seq_app, map_app, Rsum_app, IH. rewrite seq_S, map_app, Rsum_app. cbn [map]. rewrite Nat.add_0_l.
  f_equal. unfold Rsum at 2. cbn [fold_right]. rewrite Rplus_0_r. f_equal. replace (seq (m * n) n) with (map (fun b => (m * n + b)%nat) (seq 0 n)); [rewrite map_map; reflexivity|].
  apply (nth_ext _ _ 0%nat 0%nat); [rewrite map_length, !seq_length; reflexivity|]. intros i Hi. rewrite map_length, seq_length in Hi. rewrite (nth_indep _ 0%nat ((fun b => (m * n + b)%nat) 0%nat)) by (rewrite map_length, seq_length; exact Hi). rewrite (map_nth (fun b => (m * n + b)%nat)). rewrite !seq_nth by exact Hi. lia.
Qed.

Lemma Rsum_rev_seq : forall (f : nat -> R) n, Rsum (map (fun b => f (n - 1 - b)%nat) (seq 0 n)) = Rsum (map f (seq 0 n)).
Proof.
  intros f n. transitivity (Rsum (map f (map (fun b => (n - 1 - b)%nat) (seq 0 n)))); [rewrite map_map; reflexivity|]. apply Rsum_perm, Permutation_map.
  replace (map (fun b => (n - 1 - b)%nat) (seq 0 n)) with (rev (seq 0 n)); [symmetry; apply Permutation_rev|].
  apply (nth_ext _ _ 0%nat 0%nat); [rewrite rev_length, map_length; reflexivity|]. intros i Hi. rewrite rev_length, seq_length in Hi. rewrite rev_nth by (rewrite seq_length; exact Hi). rewrite seq_length.
  rewrite (nth_indep (map _ _) 0%nat ((fun b => (n - 1 - b)%nat) 0%nat)) by (rewrite map_length, seq_length; exact Hi). rewrite (map_nth (fun b => (n - 1 - b)%nat)). rewrite !seq_nth by lia. lia.
Qed.

Lemma sum_squares : forall c k, (3 * Rsum (map (fun b => (2 * INR b + c) * (2 * INR b + c)) (seq 0 k)) = 2 * INR k * (INR k - 1) * (2 * INR k - 1) + 6 * c * INR k * (INR k - 1) + 3 * c * c * INR k)%R.
Proof.
  intros c k. induction k as [|k IH]; [unfold Rsum; cbn; ring|]. rewrite seq_S, map_app, Rsum_app. cbn [map]. unfold Rsum at 2. cbn [fold_right]. rewrite Nat.add_0_l, S_INR. nra.
Qed.
Lemma amp_squares : forall n, Rsum (map (fun b => amp n b * amp n b)%R (seq 0 n)) = (INR n * (INR n * INR n - 1) / 3)%R.
Proof.
  intros n. pose proof (sum_squares (1 - INR n) n) as S. rewrite (Rsum_map_ext _ (fun b => (2 * INR b + (1 - INR n)) * (2 * INR b + (1 - INR n)))%R) by (intros b _; unfold amp; ring). nra.
Qed.

Lemma qam_power : forall h c, qam_points (2 * h) = Ok c -> let n := INR (2 * h) in Rsum (map Cnorm2 c) = (n * n * (2 * (n * n - 1) / 3))%R.
Proof.
  intros h c E n'. destruct (qam_ok h) as (c' & E' & HL & HN). rewrite E' in E. injection E as ->. set (n := (2 * h)%nat) in *.
  assert (Ec : c = map (fun i => nth i c C0) (seq 0 (n * n))).
  { apply (nth_ext _ _ C0 C0); [rewrite map_length, seq_length; exact HL|]. intros i Hi. rewrite (nth_indep (map _ _) C0 ((fun i => nth i c C0) 0%nat)) by (rewrite map_length, seq_length; lia). rewrite (map_nth (fun i => nth i c C0)). rewrite seq_nth by lia. reflexivity. }
  rewrite Ec, map_map, Rsum_seq_mul.
  rewrite (Rsum_map_ext _ (fun a => INR n * (amp n a * amp n a) + INR n * (INR n * INR n - 1) / 3)%R).
  - rewrite Rsum_map_add, Rsum_map_mul, Rsum_const, amp_squares, seq_length. unfold n'. lra.
  - intros a Ha. apply in_seq in Ha. rewrite (Rsum_map_ext _ (fun b => amp n a * amp n a + amp n (if Nat.even a then b else (n - 1 - b)) * amp n (if Nat.even a then b else (n - 1 - b)))%R).
    + rewrite Rsum_map_add, Rsum_const, seq_length. rewrite <- amp_squares. f_equal. destruct (Nat.even a); [reflexivity|]. apply (Rsum_rev_seq (fun b => amp n b * amp n b)%R).
    + intros b Hb. apply in_seq in Hb. rewrite HN by lia. reflexivity.
Qed.

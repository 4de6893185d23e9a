(* Channels: correlation matrices, expectations, propagation. *)
From Verif Require Import Base UtilModel UtilProofs Cplx ModemModel ModemProofs MimoModel MimoSpec MimoProofs ChannelModel ChannelSpec ChannelProofs ChannelFading.
Open Scope Z_scope.

(* ---------------------------------------------------------------- powers *)
Lemma Cnorm2_abs1 : forall t, Cabs t = 1%R -> Cnorm2 t = 1%R. Proof. intros t H. rewrite <- Cabs_sqr, H. ring. Qed.
Lemma unit_conj : forall t, Cnorm2 t = 1%R -> (t * Cconj t)%C = C1.
Proof. intros t H. unfold Cnorm2 in H. unfold Cmul, Cconj, C1. cbn [re im]. f_equal; lra. Qed.
Lemma recip_conj : forall t, Cnorm2 t = 1%R -> Crecip t = Cconj t.
Proof. intros t H. unfold Crecip, Cconj. rewrite H. f_equal; field. Qed.
Lemma Cpow_conj : forall z n, Cpow (Cconj z) n = Cconj (Cpow z n).
Proof. intros z n. induction n as [|n IH]; cbn [Cpow]; [creal|]. rewrite IH. creal. Qed.
Lemma Cpow_add : forall z a b, Cpow z (a + b) = (Cpow z a * Cpow z b)%C.
Proof. intros z a b. induction a as [|a IH]; cbn [Cpow Nat.add]; [ring|]. rewrite IH. ring. Qed.
Lemma Cpow_norm : forall z n, Cnorm2 z = 1%R -> Cnorm2 (Cpow z n) = 1%R.
Proof. intros z n H. induction n as [|n IH]; cbn [Cpow]; [unfold Cnorm2, C1; cbn; ring|]. rewrite Cnorm2_mul, H, IH. ring. Qed.
(* t^(j-i) = conj(t^i) t^j on the unit circle *)
Lemma CpowZ_split : forall t i j, Cnorm2 t = 1%R -> CpowZ t (Z.of_nat j - Z.of_nat i) = (Cconj (Cpow t i) * Cpow t j)%C.
Proof.
  intros t i j H. unfold CpowZ. destruct (Z.leb_spec 0 (Z.of_nat j - Z.of_nat i)) as [Hp|Hp].
  - replace (Z.to_nat (Z.of_nat j - Z.of_nat i)) with (j - i)%nat by lia. replace j with (i + (j - i))%nat at 2 by lia. rewrite Cpow_add. pose proof (unit_conj (Cpow t i) (Cpow_norm t i H)) as U. transitivity ((Cpow t i * Cconj (Cpow t i)) * Cpow t (j - i))%C; [rewrite U; ring|ring].
  - replace (Z.to_nat (- (Z.of_nat j - Z.of_nat i))) with (i - j)%nat by lia. rewrite recip_conj by exact H. rewrite Cpow_conj. replace i with (j + (i - j))%nat at 2 by lia. rewrite Cpow_add. pose proof (unit_conj (Cpow t j) (Cpow_norm t j H)) as U. transitivity ((Cpow t j * Cconj (Cpow t j)) * Cconj (Cpow t (i - j)))%C; [rewrite U; ring|creal].
Qed.

(* ---------------------------------------------------------------- exponential kernels are positive *)
Definition kern (q : R) (y : nat -> C) (n : nat) : C := Csum (map (fun i => Csum (map (fun j => (Cscale (q ^ (if (i <=? j)%nat then j - i else i - j)) (Cconj (y i) * y j))%C) (seq 0 n))) (seq 0 n)).
Fixpoint state (q : R) (y : nat -> C) (n : nat) : C := match n with O => C0 | S n' => (Cscale q (state q y n') + y n')%C end.
Lemma state_sum : forall q y n, Csum (map (fun i => Cscale (q ^ (n - i)) (y i)) (seq 0 n)) = Cscale q (state q y n).
Proof.
  intros q y n. induction n as [|n IH]; [cbn; creal|]. rewrite seq_S, map_app, Csum_app. cbn [map Csum fold_right state]. rewrite Nat.add_0_l. replace (S n - n)%nat with 1%nat by lia. rewrite (Csum_map_ext _ (fun i => (ofR q * Cscale (q ^ (n - i)) (y i))%C)).
  - rewrite Csum_map_mul, IH. rewrite pow_1. creal.
  - intros i Hi. apply in_seq in Hi. replace (S n - i)%nat with (S (n - i)) by lia. cbn [pow]. creal.
Qed.
Lemma kern_S : forall q y n, kern q y (S n) = (kern q y n + Cconj (Cscale q (state q y n)) * y n + Cconj (y n) * Cscale q (state q y n) + ofR (Cnorm2 (y n)))%C.
Proof.
  intros q y n. unfold kern at 1. rewrite seq_S, map_app, Csum_app. cbn [map Csum fold_right Nat.add]. rewrite (Csum_map_ext _ (fun i => (Csum (map (fun j => Cscale (q ^ (if (i <=? j)%nat then j - i else i - j)) (Cconj (y i) * y j)) (seq 0 n)) + y n * Cconj (Cscale (q ^ (n - i)) (y i)))%C)).
  2:{ intros i Hi. apply in_seq in Hi. rewrite map_app, Csum_app. cbn [map Csum fold_right]. destruct (Nat.leb_spec i n); [|lia]. f_equal. creal. }
  rewrite Csum_map_add. fold (kern q y n). rewrite Csum_map_mul. rewrite <- (map_map (fun i => Cscale (q ^ (n - i)) (y i)) Cconj), <- Csum_conj, state_sum.
  rewrite map_app, Csum_app. cbn [map Csum fold_right]. rewrite Nat.leb_refl, Nat.sub_diag. rewrite (Csum_map_ext (fun j => Cscale (q ^ (if (n <=? j)%nat then j - n else n - j)) (Cconj (y n) * y j)) (fun j => (Cconj (y n) * Cscale (q ^ (n - j)) (y j))%C)).
  2:{ intros j Hj. apply in_seq in Hj. destruct (Nat.leb_spec n j); [lia|]. creal. }
  rewrite Csum_map_mul, state_sum. cbn [pow]. unfold Cnorm2. creal.
Qed.
Lemma kern_pos : forall q y n, (0 <= q <= 1)%R -> im (kern q y n) = 0%R /\ (Cnorm2 (state q y n) <= re (kern q y n))%R.
Proof.
  intros q y n Hq. induction n as [|n (I1 & I2)]; [cbn; split; [reflexivity|]; unfold Cnorm2; cbn; lra|]. rewrite kern_S. cbn [state]. destruct (state q y n) as [a b], (y n) as [c d]. unfold Cadd, Cmul, Cconj, Cscale, ofR, Cnorm2 in *. cbn [re im] in *. split; [lra|]. assert (H : (0 <= (1 - q * q) * (a * a + b * b))%R) by (apply Rmult_le_pos; nra). lra.
Qed.

Lemma exp_pow : forall b d, exp (- b * INR d) = (exp (- b) ^ d)%R.
Proof. intros b d. induction d as [|d IH]; [cbn [INR pow]; rewrite Rmult_0_r; apply exp_0|]. rewrite S_INR. cbn [pow]. rewrite <- IH, <- exp_plus. f_equal. ring. Qed.
Lemma decay_value : forall b i j, exp (- b * Rabs (INR j - INR i)) = (exp (- b) ^ (if (i <=? j)%nat then j - i else i - j))%R.
Proof.
  intros b i j. rewrite <- exp_pow. f_equal. f_equal. destruct (Nat.leb_spec i j) as [H|H].
  - rewrite minus_INR by exact H. apply Rabs_pos_eq. apply le_INR in H. lra.
  - rewrite minus_INR by lia. rewrite Rabs_left1; [ring|]. apply lt_INR in H. lra.
Qed.
(* the matrix of the methods, scaled by s >= 0 *)
Definition corr (n : nat) (s : R) (t : C) (b : R) : list (list C) := build n n (fun i j => (Cscale s (CpowZ t (Z.of_nat j - Z.of_nat i)) * ofR (exp (- b * Rabs (INR j - INR i))))%C).
Lemma corr_rayleigh : forall n t b, mat_mul_elt (expo_matrix n t) (decay n b) = corr n 1 t b.
Proof. intros n t b. rewrite expo_build, decay_build, mul_build. apply build_ext. intros i j _ _. creal. Qed.
Lemma corr_rice : forall n s t b, mat_mul_elt (mat_scale s (expo_matrix n t)) (decay n b) = corr n s t b.
Proof. intros n s t b. rewrite expo_build, decay_build, scale_build, mul_build. reflexivity. Qed.
Lemma corr_hermitian : forall n s t b, Cabs t = 1%R -> hermitian n (corr n s t b).
Proof.
  intros n s t b Ht i j Hi Hj. apply Cnorm2_abs1 in Ht. unfold corr. rewrite !build_entry by assumption. rewrite !CpowZ_split by exact Ht. rewrite (Rabs_minus_sym (INR i) (INR j)). creal.
Qed.
Lemma corr_positive : forall n s t b, Cabs t = 1%R -> (0 <= s)%R -> (0 <= b)%R -> positive n (corr n s t b).
Proof.
  intros n s t b Ht Hs Hb x. apply Cnorm2_abs1 in Ht. set (y := fun j => (Cpow t j * x j)%C). set (q := exp (- b)). assert (E : quadratic n (corr n s t b) x = Cscale s (kern q y n)).
  { unfold quadratic, kern. transitivity (ofR s * Csum (map (fun i => Csum (map (fun j => Cscale (q ^ (if (i <=? j)%nat then j - i else i - j)) (Cconj (y i) * y j)) (seq 0 n))) (seq 0 n)))%C; [|creal].
    rewrite <- Csum_map_mul. apply Csum_map_ext. intros i Hi. apply in_seq in Hi. rewrite <- Csum_map_mul. apply Csum_map_ext. intros j Hj. apply in_seq in Hj. unfold corr. rewrite build_entry by lia. rewrite CpowZ_split by exact Ht. rewrite decay_value. fold q. unfold y. creal. }
  assert (Hq : (0 <= q <= 1)%R). { unfold q. split; [apply Rlt_le, exp_pos|]. rewrite <- exp_0. destruct (Req_dec b 0) as [->|]; [rewrite Ropp_0; lra|]. apply Rlt_le, exp_increasing. lra. }
  destruct (kern_pos q y n Hq) as (P1 & P2). pose proof (Cnorm2_nonneg (state q y n)). rewrite E. unfold Cscale. cbn [re im]. rewrite P1. split; [ring|]. apply Rmult_le_pos; lra.
Qed.

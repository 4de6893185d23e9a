(* Proofs of the properties C06, C08, C11, C61, C62. *)
From Coq Require Import QArith.
From Coq Require Qcanon.
From Verif Require Import Base UtilModel UtilProofs Cplx ModemModel ModemProofs MimoModel MimoSpec MimoProofs DspModel DspProofs ZcProofs.
Close Scope Q_scope.
Open Scope R_scope.

Definition diffs (a b : list R) : list R := map (fun p => fst p - snd p) (combine a b).
Lemma euclid_eq : forall a b, length a = length b -> euclid_dist a b = Ok (sq_sum (diffs a b)).
Proof. intros a b H. unfold euclid_dist, np_broadcast2. rewrite H, Nat.eqb_refl. cbn [bind]. unfold sq_sum, diffs. rewrite map_map. reflexivity. Qed.
Lemma diffs_length : forall a b, length a = length b -> length (diffs a b) = length a.
Proof. intros. unfold diffs. rewrite map_length, combine_length. lia. Qed.
Lemma diffs_nth : forall a b i, length a = length b -> nth i (diffs a b) 0 = nth i a 0 - nth i b 0.
Proof.
  intros a b i H. unfold diffs. pose proof (map_nth (fun p : R * R => fst p - snd p) (combine a b) (0, 0) i) as E. rewrite combine_nth in E by exact H. cbn [fst snd] in E. rewrite <- E. rewrite Rminus_0_r. reflexivity.
Qed.
Lemma sq_sum_seq : forall l, sq_sum l = Rsum (map (fun i => nth i l 0 * nth i l 0) (seq 0 (length l))).
Proof. intros l. unfold sq_sum. rewrite <- (map_nth_seq_id l 0) at 1. rewrite map_map. reflexivity. Qed.
Lemma sq_sum_swap : forall a b, sq_sum (diffs a b) = sq_sum (diffs b a).
Proof.
  induction a as [|x a IH]; intros [|y b]; try reflexivity. unfold sq_sum, diffs in *. cbn [combine map Rsum fold_right fst snd]. specialize (IH b). unfold Rsum in IH. rewrite IH. ring.
Qed.
Lemma sq_sum_split : forall a b c, length a = length b -> length b = length c -> sq_sum (diffs a c) = sq_sum (diffs a b) + 2 * prod_sum (diffs a b) (diffs b c) + sq_sum (diffs b c).
Proof.
  induction a as [|x a IH]; intros [|y b] [|z c] H1 H2; try discriminate; [unfold sq_sum, prod_sum, diffs; cbn; lra|]. injection H1 as H1. injection H2 as H2. specialize (IH b c H1 H2). unfold sq_sum, prod_sum, diffs in *. cbn [combine map Rsum fold_right fst snd]. unfold Rsum in IH. rewrite IH. ring.
Qed.
Lemma power_eq : forall s, s <> [] -> signal_power s = Ok (Rsum (map Cnorm2 s) / INR (length s)).
Proof. intros s H. unfold signal_power. destruct s; [congruence|]. do 2 f_equal. apply Rsum_map_ext. intros x _. apply Cabs_sqr. Qed.
Lemma len_pos : forall {A} (s : list A), s <> [] -> 0 < INR (length s).
Proof. intros A s H. apply lt_0_INR. destruct s; [congruence|cbn; lia]. Qed.
(* the samples of an upsampled signal *)
Fixpoint spread (n : nat) (s : list C) : list C := match s with [] => [] | x :: s' => (x :: repeat C0 (n - 1)) ++ spread n s' end.
Lemma spread_length : forall n s, (1 <= n)%nat -> length (spread n s) = (length s * n)%nat.
Proof. intros n s Hn. induction s as [|x s IH]; [reflexivity|]. cbn [spread]. rewrite app_length. cbn [length]. rewrite repeat_length, IH. lia. Qed.
Lemma spread_nth : forall n s i r d, (1 <= n)%nat -> (i < length s)%nat -> (r < n)%nat -> nth (n * i + r) (spread n s) d = if (r =? 0)%nat then nth i s d else C0.
Proof.
  intros n s. induction s as [|x s IH]; intros i r d Hn Hi Hr; [cbn in Hi; lia|]. cbn [spread]. assert (L : length (x :: repeat C0 (n - 1)) = n) by (cbn [length]; rewrite repeat_length; lia). destruct i as [|i].
  - rewrite app_nth1 by lia. rewrite Nat.mul_0_r, Nat.add_0_l. destruct r as [|r]; [reflexivity|]. cbn [nth Nat.eqb]. rewrite (nth_indep _ d C0) by (rewrite repeat_length; lia). apply nth_repeat.
  - rewrite app_nth2 by lia. rewrite L. replace (n * S i + r - n)%nat with (n * i + r)%nat by lia. cbn [length] in Hi. rewrite IH by lia. reflexivity.
Qed.
Lemma spread_power : forall n s, Rsum (map Cnorm2 (spread n s)) = Rsum (map Cnorm2 s).
Proof.
  intros n s. induction s as [|x s IH]; [reflexivity|]. cbn [spread]. rewrite map_app, Rsum_app, IH. cbn [map Rsum fold_right]. fold (Rsum (map Cnorm2 (repeat C0 (n - 1)))) (Rsum (map Cnorm2 s)). assert (Z : Rsum (map Cnorm2 (repeat C0 (n - 1))) = 0). { clear. induction (n - 1)%nat as [|k IH]; [reflexivity|]. cbn [repeat map Rsum fold_right]. unfold Rsum in IH. rewrite IH, Cnorm2_C0. ring. } rewrite Z. ring.
Qed.
Lemma upsample_spread : forall s n, (1 <= n)%nat -> upsample C0 s n = Ok (map Some (spread n s)).
Proof.
  intros s n Hn. destruct (upsample_full C0 s n) as (_ & H). destruct (H Hn) as (y & E & L & A & B). rewrite E. f_equal. apply (nth_ext _ _ None None); [rewrite map_length, spread_length by exact Hn; exact L|].
  intros j Hj. rewrite L in Hj. set (i := (j / n)%nat). set (r := (j mod n)%nat). assert (J : j = (n * i + r)%nat) by (apply Nat.div_mod; lia). assert (Hr : (r < n)%nat) by (apply Nat.mod_upper_bound; lia). assert (Hi : (i < length s)%nat) by (apply Nat.div_lt_upper_bound; lia).
  rewrite (nth_map_lt _ _ _ C0 None) by (rewrite spread_length by exact Hn; exact Hj). rewrite J at 2. rewrite spread_nth by assumption. destruct (Nat.eqb_spec r 0) as [R0|R0].
  - rewrite R0, Nat.add_0_r in J. specialize (A i (nth i s C0) (nth_error_nth' s C0 Hi)). rewrite <- J in A. apply nth_error_nth. exact A.
  - apply nth_error_nth. apply B; [exact Hj|exact R0].
Qed.
Lemma offset_eq : forall w Fs d, Fs <> 0 -> add_frequency_offset w Fs d = Ok (map (fun i => (nth i w C0 * cis (2 * PI * (d / Fs) * INR i))%C) (seq 0 (length w))).
Proof.
  intros w Fs d H. unfold add_frequency_offset. destruct (Req_EM_T Fs 0); [contradiction|]. f_equal. apply (nth_ext _ _ C0 C0); [rewrite !map_length, combine_length, !seq_length; lia|]. intros i Hi. rewrite map_length, combine_length, seq_length in Hi. rewrite (nth_map_lt _ _ _ (0%nat, C0) C0) by (rewrite combine_length, seq_length; lia). rewrite combine_nth by (rewrite seq_length; reflexivity). rewrite nth_map_seq by lia. rewrite seq_nth by lia. reflexivity.
Qed.

Lemma C06_metric_proof :
(* arrays of the same length *)
  forall a b c : list R, length a = length b -> length b = length c ->
    exists dab dbc dac, euclid_dist a b = Ok dab /\ euclid_dist b c = Ok dbc /\ euclid_dist a c = Ok dac /\
      dab = Rsum (map (fun i => (nth i a 0 - nth i b 0) * (nth i a 0 - nth i b 0)) (seq 0 (length a))) /\
      0 <= dab /\ euclid_dist b a = Ok dab /\ (dab = 0 <-> a = b) /\ sqrt dac <= sqrt dab + sqrt dbc.
Proof.
  intros a b c H1 H2. exists (sq_sum (diffs a b)), (sq_sum (diffs b c)), (sq_sum (diffs a c)). split; [apply euclid_eq, H1|]. split; [apply euclid_eq, H2|]. split; [apply euclid_eq; lia|]. split; [rewrite sq_sum_seq, diffs_length by exact H1; apply Rsum_map_ext; intros i _; rewrite diffs_nth by exact H1; reflexivity|]. split; [apply sq_sum_nonneg|]. split; [rewrite euclid_eq by lia; rewrite sq_sum_swap; reflexivity|]. split; [split|].
  - intros Z. apply (nth_ext _ _ 0 0); [exact H1|]. intros i Hi. assert (P : nth i (diffs a b) 0 * nth i (diffs a b) 0 = 0).
    { unfold sq_sum in Z. apply (Rsum_zero (map (fun x => x * x) (diffs a b))); [intros x Hx; apply in_map_iff in Hx as (y & <- & _); nra|exact Z|]. apply (in_map (fun x => x * x)). apply nth_In. rewrite diffs_length by exact H1. exact Hi. }
    rewrite diffs_nth in P by exact H1. nra.
  - intros <-. clear. unfold sq_sum, diffs. induction a as [|x a IH]; [reflexivity|]. cbn [combine map Rsum fold_right fst snd]. unfold Rsum in IH. rewrite IH. ring.
  - assert (LD : length (diffs a b) = length (diffs b c)) by (rewrite !diffs_length by lia; exact H1). pose proof (cauchy _ _ LD) as CS. pose proof (sq_sum_nonneg (diffs a b)) as N1. pose proof (sq_sum_nonneg (diffs b c)) as N2. rewrite (sq_sum_split a b c H1 H2). set (X := sq_sum (diffs a b)) in *. set (Y := sq_sum (diffs b c)) in *. set (P := prod_sum _ _) in *.
    assert (Q1 := sqrt_sqrt X N1). assert (Q2 := sqrt_sqrt Y N2). pose proof (sqrt_pos X) as S1. pose proof (sqrt_pos Y) as S2. assert (PB : P <= sqrt X * sqrt Y). { apply Rnot_lt_le. intros F. assert (0 <= sqrt X * sqrt Y) by (apply Rmult_le_pos; assumption). assert (sqrt X * sqrt Y * (sqrt X * sqrt Y) < P * P) by nra. nra. }
    rewrite <- (sqrt_square (sqrt X + sqrt Y)) by lra. apply sqrt_le_1_alt. nra.
Qed.

Lemma C06_shape_proof :
(* arrays of different lengths: ValueError, except that an array of length 1 is compared with every entry of the other *)
  forall a b : list R, length a <> length b ->
    (length a <> 1%nat -> length b <> 1%nat -> euclid_dist a b = Err ValueError) /\
    (forall y, b = [y] -> euclid_dist a b = euclid_dist a (repeat y (length a))) /\ (forall x, a = [x] -> euclid_dist a b = euclid_dist (repeat x (length b)) b).
Proof.
  intros a b H. split; [|split].
  - intros H1 H2. unfold euclid_dist, np_broadcast2. destruct (Nat.eqb_spec (length a) (length b)); [contradiction|]. destruct a as [|x [|x' a]], b as [|y [|y' b]]; cbn in *; try lia; reflexivity.
  - intros y ->. rewrite (euclid_eq a (repeat y (length a))) by (rewrite repeat_length; reflexivity). unfold euclid_dist, np_broadcast2. destruct (Nat.eqb_spec (length a) (length [y])); [contradiction|]. assert (E : forall l : list R, map (fun x => (x, y)) l = combine l (repeat y (length l))) by (induction l as [|x l IH]; [reflexivity|cbn; f_equal; exact IH]).
    destruct a as [|x [|x' a]]; [cbn; reflexivity|cbn in H; lia|]. cbn [bind]. rewrite E. unfold sq_sum, diffs. rewrite map_map. reflexivity.
  - intros x ->. rewrite (euclid_eq (repeat x (length b)) b) by (rewrite repeat_length; reflexivity). unfold euclid_dist, np_broadcast2. destruct (Nat.eqb_spec (length [x]) (length b)); [contradiction|]. assert (E : forall l : list R, map (fun y => (x, y)) l = combine (repeat x (length l)) l) by (induction l as [|y l IH]; [reflexivity|cbn; f_equal; exact IH]).
    cbn [bind]. rewrite E. unfold sq_sum, diffs. rewrite map_map. reflexivity.
Qed.

Lemma C08_power_proof :
forall s : list C, s <> [] -> exists P, signal_power s = Ok P /\ P = Rsum (map (fun z => re z * re z + im z * im z) s) / INR (length s) /\ 0 <= P /\
    (P = 0 <-> Forall (fun z => z = C0) s) /\ (forall c, signal_power (map (fun z => (c * z)%C) s) = Ok (Cnorm2 c * P)) /\ forall t, signal_power (s ++ t) = Ok ((INR (length s) * P + Rsum (map Cnorm2 t)) / (INR (length s) + INR (length t))).
Proof.
  intros s H. pose proof (len_pos s H) as L. rewrite power_eq by exact H. eexists. split; [reflexivity|]. split; [reflexivity|]. assert (NN : forall x, In x (map Cnorm2 s) -> 0 <= x) by (intros x Hx; apply in_map_iff in Hx as (z & <- & _); apply Cnorm2_nonneg). pose proof (Rsum_nonneg _ NN) as S0. split; [|split; [split|split]].
  - apply Rmult_le_pos; [exact S0|]. apply Rlt_le, Rinv_0_lt_compat, L.
  - intros Z. assert (Z' : Rsum (map Cnorm2 s) = 0). { apply (Rmult_eq_reg_r (/ INR (length s))); [|apply Rinv_neq_0_compat; lra]. rewrite Rmult_0_l. exact Z. } apply Forall_forall. intros z Hz. apply Cnorm2_0. apply (Rsum_zero _ NN Z'). apply in_map, Hz.
  - intros Z. rewrite (Rsum_map_ext Cnorm2 (fun _ => 0)); [rewrite Rsum_const; field; lra|]. intros z Hz. rewrite Forall_forall in Z. rewrite (Z z Hz). apply Cnorm2_C0.
  - intros c. rewrite power_eq by (destruct s; [congruence|discriminate]). rewrite map_length, map_map. rewrite (Rsum_map_ext _ (fun z => Cnorm2 c * Cnorm2 z)) by (intros; apply Cnorm2_mul). rewrite Rsum_map_mul. f_equal. field. lra.
  - intros t. rewrite power_eq by (destruct s; [congruence|discriminate]). rewrite map_app, Rsum_app, app_length, plus_INR. f_equal. assert (0 <= INR (length t)) by apply pos_INR. field. split; lra.
Qed.

Lemma C08_upsample_proof :
(* upsampling by n divides the power by n *)
  forall (s : list C) (n : nat), s <> [] -> (1 <= n)%nat ->
    exists y P, upsample C0 s n = Ok (map Some y) /\ signal_power s = Ok P /\ signal_power y = Ok (P / INR n).
Proof.
  intros s n H Hn. pose proof (len_pos s H) as L. assert (Ln : 0 < INR n) by (apply lt_0_INR; lia). exists (spread n s). eexists. split; [apply upsample_spread, Hn|]. split; [apply power_eq, H|]. rewrite power_eq.
  - rewrite spread_power, spread_length by exact Hn. rewrite mult_INR. f_equal. field. split; lra.
  - intros E. apply (f_equal (@length C)) in E. rewrite spread_length in E by exact Hn. destruct s; [congruence|cbn in E; lia].
Qed.

Lemma C11_accepts_proof :
(* integers u, N and any integer-valued q: accepted exactly if 0 < u < N and gcd(u, N) = 1, ValueError otherwise *)
  forall (u N : Z) (q : pynum), (forall q', q = PyFloat q' -> exists z, Qeq q' (inject_Z z)) ->
    ((0 < u < N /\ Z.gcd u N = 1)%Z -> exists z, zcsequence (PyInt u) (PyInt N) q = Ok z /\ length z = Z.to_nat N) /\
    (~ (0 < u < N /\ Z.gcd u N = 1)%Z -> zcsequence (PyInt u) (PyInt N) q = Err ValueError).
Proof.
  intros u N q Hq. assert (I : is_integer q = true).
  { destruct q as [z|q']; [reflexivity|]. destruct (Hq q' eq_refl) as (z & E). cbn [is_integer]. rewrite (Qred_complete _ _ E). rewrite (Qcanon.Qred_identity (inject_Z z)) by (cbn; apply Z.gcd_1_r). reflexivity. }
  unfold zcsequence. cbn [is_integer negb is_float orb int_value]. rewrite I. cbn [negb]. destruct (Z.leb_spec u 0); [split; [lia|reflexivity]|]. destruct (Z.leb_spec N u); [split; [lia|reflexivity]|]. destruct (Z.eqb_spec (Z.gcd u N) 1); cbn [negb]; split; try lia; intros _; try reflexivity. eexists. split; [reflexivity|]. rewrite map_length. apply seq_length.
Qed.

Lemma C11_floats_proof :
(* a non-integer argument: ValueError; an integer-valued float q is as good as the integer; u or N given as an integer-valued float with
     0 < u < N: TypeError *)
  forall u N q : pynum,
    (forall x, In (PyFloat x) [u; N; q] -> (forall z, ~ Qeq x (inject_Z z)) -> zcsequence u N q = Err ValueError) /\
    (forall x z, Qeq x (inject_Z z) -> zcsequence u N (PyFloat x) = zcsequence u N (PyInt z)) /\
    (forall (x y : Q) (a b : Z), Qeq x (inject_Z a) -> Qeq y (inject_Z b) -> (u = PyFloat x /\ (N = PyInt b \/ N = PyFloat y) \/ u = PyInt a /\ N = PyFloat y) -> (0 < a < b)%Z -> q = PyInt 0 -> zcsequence u N q = Err TypeError).
Proof.
  intros u N q. assert (I : forall x z, Qeq x (inject_Z z) -> Qred x = inject_Z z). { intros x z E. rewrite (Qred_complete _ _ E). apply Qcanon.Qred_identity. cbn. apply Z.gcd_1_r. } split; [|split].
  - intros x Hx Hz. assert (F : is_integer (PyFloat x) = false).
    { cbn [is_integer]. destruct (Pos.eqb_spec (Qden (Qred x)) 1) as [E|E]; [|reflexivity]. exfalso. apply (Hz (Qnum (Qred x))). rewrite <- (Qred_correct x) at 1. unfold Qeq, inject_Z. cbn. rewrite E. reflexivity. }
    unfold zcsequence. destruct Hx as [-> | [-> | [-> | []]]]; rewrite F; cbn [negb]; try reflexivity; destruct (is_integer u); cbn [negb]; try reflexivity. destruct (is_integer N); reflexivity.
  - intros x z E. unfold zcsequence. cbn [is_integer int_value]. rewrite (I _ _ E). reflexivity.
  - intros x y a b Ea Eb H Hxy ->. unfold zcsequence. destruct H as [(-> & [-> | ->]) | (-> & ->)]; cbn [is_integer int_value is_float]; rewrite ?(I _ _ Ea), ?(I _ _ Eb); cbn [inject_Z Qden Qnum Pos.eqb negb orb]; destruct (Z.leb_spec a 0); try lia; destruct (Z.leb_spec b a); try lia; reflexivity.
Qed.

Lemma C11_cazac_proof :
(* constant amplitude; zero periodic autocorrelation at every lag that is not a multiple of N; flat spectrum *)
  forall (u N q : Z), (0 < u < N)%Z -> Z.gcd u N = 1%Z -> exists z, zcsequence (PyInt u) (PyInt N) (PyInt q) = Ok z /\ length z = Z.to_nat N /\
    (forall n, (n < Z.to_nat N)%nat -> Cabs (nth n z C0) = 1 /\ nth n z C0 = cis (- (PI * IZR u * INR n * (INR n + IZR (N mod 2) + 2 * IZR q)) / IZR N)) /\
    (forall d, (0 < d < Z.to_nat N)%nat -> Csum (map (fun n => nth ((n + d) mod Z.to_nat N) z C0 * Cconj (nth n z C0))%C (seq 0 (Z.to_nat N))) = C0) /\
    (forall k : Z, Cabs (Csum (map (fun n => nth n z C0 * cis (- (2 * PI * IZR k * INR n / IZR N)))%C (seq 0 (Z.to_nat N)))) = sqrt (IZR N)).
Proof.
  intros u N q Hu Hg. destruct (C11_accepts_proof u N (PyInt q) ltac:(discriminate)) as (A & _). destruct (A (conj Hu Hg)) as (z & E & L). exists z. split; [exact E|]. split; [exact L|]. assert (HN : (1 <= N)%Z) by lia. assert (N0 : IZR N <> 0) by (apply IZR_neq; lia).
  assert (Z : z = map (zc_sample u N q) (seq 0 (Z.to_nat N))).
  { unfold zcsequence in E. cbn [is_integer negb is_float orb int_value] in E. destruct (Z.leb_spec u 0); [lia|]. destruct (Z.leb_spec N u); [lia|]. rewrite Hg in E. cbn [Z.eqb Pos.eqb negb] in E. injection E as <-. reflexivity. }
  assert (ZN : forall n, (n < Z.to_nat N)%nat -> nth n z C0 = zc u N q (Z.of_nat n)) by (intros n Hn; rewrite Z, nth_map_seq by exact Hn; apply zc_sample_eq).
  split; [|split].
  - intros n Hn. rewrite ZN by exact Hn. split; [apply Cabs_cis|]. unfold zc. rewrite INR_IZR_INZ. f_equal. field. exact N0.
  - intros d Hd. rewrite (Csum_map_ext _ (fun n => zc u N q (Z.of_nat n + Z.of_nat d) * Cconj (zc u N q (Z.of_nat n)))%C).
    + apply (zc_autocorr u N q (Z.of_nat d) HN Hg). rewrite Z.mod_small by lia. lia.
    + intros n Hn. apply in_seq in Hn. rewrite !ZN by (try lia; apply Nat.mod_upper_bound; lia). rewrite Nat2Z.inj_mod, Nat2Z.inj_add, Z2Nat.id by lia. rewrite zc_mod by exact HN. reflexivity.
  - intros k. unfold Cabs. f_equal. rewrite (Csum_map_ext _ (fun n => zc u N q (Z.of_nat n) * cis (- (2 * PI * IZR k * IZR (Z.of_nat n) / IZR N)))%C) by (intros n Hn; apply in_seq in Hn; rewrite ZN by lia; rewrite (INR_IZR_INZ n); reflexivity).
    transitivity (INR (Z.to_nat N)); [|rewrite INR_IZR_INZ, Z2Nat.id by lia; reflexivity]. apply (gauss_flat (Z.to_nat N) (fun n => zc u N q n * cis (- (2 * PI * IZR k * IZR n / IZR N)))%C (fun e => zc u N q e * cis (- (2 * PI * IZR k * IZR e / IZR N)))%C (- u)).
    + lia.
    + rewrite Z2Nat.id by lia. rewrite Z.gcd_opp_l. exact Hg.
    + intros n. rewrite Z2Nat.id by lia. rewrite zc_period by exact HN. f_equal. rewrite <- (cis_period (- (2 * PI * IZR k * IZR n / IZR N)) (- k)). f_equal. rewrite plus_IZR, opp_IZR. field. exact N0.
    + intros n e. rewrite INR_IZR_INZ, Z2Nat.id by lia. transitivity ((zc u N q (n + e) * Cconj (zc u N q n)) * (cis (- (2 * PI * IZR k * IZR (n + e) / IZR N)) * Cconj (cis (- (2 * PI * IZR k * IZR n / IZR N)))))%C; [creal|]. rewrite zc_lag by exact HN.
      replace (cis (- (2 * PI * IZR k * IZR (n + e) / IZR N)) * Cconj (cis (- (2 * PI * IZR k * IZR n / IZR N))))%C with (cis (- (2 * PI * IZR k * IZR e / IZR N))); [ring|]. rewrite <- cis_opp, <- cis_add. f_equal. rewrite plus_IZR. field. exact N0.
    + rewrite Cnorm2_mul. unfold zc. rewrite !Cnorm2_cis. ring.
Qed.

Lemma C11_cross_correlation_proof :
(* two sequences of the same length whose root indices differ by a number coprime to N: every cyclic cross-correlation has magnitude sqrt N *)
  forall (u v N q q' : Z) (d : nat), (0 < u < N)%Z -> (0 < v < N)%Z -> Z.gcd u N = 1%Z -> Z.gcd v N = 1%Z -> Z.gcd (u - v) N = 1%Z ->
    exists y z, zcsequence (PyInt u) (PyInt N) (PyInt q) = Ok y /\ zcsequence (PyInt v) (PyInt N) (PyInt q') = Ok z /\
      Cabs (Csum (map (fun n => nth n y C0 * Cconj (nth ((n + d) mod Z.to_nat N) z C0))%C (seq 0 (Z.to_nat N)))) = sqrt (IZR N).
Proof.
  intros u v N q q' d Hu Hv Gu Gv Hg. assert (HN : (1 <= N)%Z) by lia. assert (N0 : IZR N <> 0) by (apply IZR_neq; lia).
  assert (S : forall u q, (0 < u < N)%Z -> Z.gcd u N = 1%Z -> zcsequence (PyInt u) (PyInt N) (PyInt q) = Ok (map (zc_sample u N q) (seq 0 (Z.to_nat N)))).
  { clear - HN. intros u q Hu Hg. unfold zcsequence. cbn [is_integer negb is_float orb int_value]. destruct (Z.leb_spec u 0); [lia|]. destruct (Z.leb_spec N u); [lia|]. rewrite Hg. reflexivity. }
  eexists _, _. split; [apply S; assumption|]. split; [apply S; assumption|]. unfold Cabs. f_equal.
  rewrite (Csum_map_ext _ (fun n => zc u N q (Z.of_nat n) * Cconj (zc v N q' (Z.of_nat n + Z.of_nat d)))%C).
  2:{ intros n Hn. apply in_seq in Hn. rewrite !nth_map_seq by (try lia; apply Nat.mod_upper_bound; lia). rewrite !zc_sample_eq. rewrite Nat2Z.inj_mod, Nat2Z.inj_add, Z2Nat.id by lia. rewrite zc_mod by exact HN. reflexivity. }
  transitivity (INR (Z.to_nat N)); [|rewrite INR_IZR_INZ, Z2Nat.id by lia; reflexivity]. set (D := Z.of_nat d). apply (gauss_flat (Z.to_nat N) (fun n => zc u N q n * Cconj (zc v N q' (n + D)))%C (fun e => zc u N q e * Cconj (zc v N q' e) * cis (2 * PI * IZR v * IZR e * IZR D / IZR N))%C (v - u)).
  - lia.
  - rewrite Z2Nat.id by lia. replace (v - u)%Z with (- (u - v))%Z by ring. rewrite Z.gcd_opp_l. exact Hg.
  - intros n. rewrite Z2Nat.id by lia. rewrite zc_period by exact HN. do 2 f_equal. replace (n + N + D)%Z with (n + D + N)%Z by ring. apply zc_period, HN.
  - intros n e. rewrite INR_IZR_INZ, Z2Nat.id by lia. unfold zc. rewrite <- !cis_opp, <- !cis_add. rewrite <- !cis_opp. rewrite <- !cis_add. f_equal. rewrite !plus_IZR, mult_IZR, minus_IZR. field. exact N0.
  - rewrite Cnorm2_mul, Cnorm2_conj. unfold zc. rewrite !Cnorm2_cis. ring.
Qed.

Lemma C11_shift_proof :
(* q shifts the sequence cyclically up to a constant factor of magnitude 1 *)
  forall (u N q : Z), (0 < u < N)%Z -> Z.gcd u N = 1%Z -> exists z z0, zcsequence (PyInt u) (PyInt N) (PyInt q) = Ok z /\ zcsequence (PyInt u) (PyInt N) (PyInt 0) = Ok z0 /\
    let k := Z.to_nat (q mod N) in Cabs (nth k z0 C0) = 1 /\ forall n, (n < Z.to_nat N)%nat -> nth n z C0 = (nth ((n + k) mod Z.to_nat N) z0 C0 * Cconj (nth k z0 C0))%C.
Proof.
  intros u N q Hu Hg. assert (HN : (1 <= N)%Z) by lia. pose proof (Z.mod_pos_bound q N ltac:(lia)) as MB.
  assert (S : forall q, zcsequence (PyInt u) (PyInt N) (PyInt q) = Ok (map (zc_sample u N q) (seq 0 (Z.to_nat N)))).
  { clear - HN Hu Hg. intros q. unfold zcsequence. cbn [is_integer negb is_float orb int_value]. destruct (Z.leb_spec u 0); [lia|]. destruct (Z.leb_spec N u); [lia|]. rewrite Hg. reflexivity. }
  eexists _, _. split; [apply S|]. split; [apply S|]. cbv zeta. assert (K : nth (Z.to_nat (q mod N)) (map (zc_sample u N 0) (seq 0 (Z.to_nat N))) C0 = zc u N 0 q) by (rewrite nth_map_seq by lia; rewrite zc_sample_eq, Z2Nat.id by lia; apply zc_mod, HN).
  rewrite K. split; [apply Cabs_cis|]. intros n Hn. rewrite !nth_map_seq by (try lia; apply Nat.mod_upper_bound; lia). rewrite !zc_sample_eq. rewrite Nat2Z.inj_mod, Nat2Z.inj_add, !Z2Nat.id by lia. rewrite zc_mod by exact HN. rewrite (zc_shift u N q) by exact HN. f_equal. rewrite <- (zc_mod u N 0 (Z.of_nat n + q)), <- (zc_mod u N 0 (Z.of_nat n + q mod N)) by exact HN. f_equal. rewrite Zplus_mod_idemp_r. reflexivity.
Qed.

Lemma C11_exact_shift_refuted_proof :
(* the documented "cyclic shift": not exactly a shift of the sequence for q = 0 *)
  ~ (forall (u N q : Z) z z0, (0 < u < N)%Z -> zcsequence (PyInt u) (PyInt N) (PyInt q) = Ok z -> zcsequence (PyInt u) (PyInt N) (PyInt 0) = Ok z0 ->
       forall n, (n < Z.to_nat N)%nat -> nth n z C0 = nth ((n + Z.to_nat (q mod N)) mod Z.to_nat N) z0 C0).
Proof.
  intros H. specialize (H 1%Z 2%Z 1%Z _ _ ltac:(lia) eq_refl eq_refl 0%nat ltac:(cbn; lia)). cbn [Z.to_nat Pos.to_nat Pos.iter_op Nat.add seq map nth] in H. change (Z.to_nat (1 mod 2)) with 1%nat in H. cbn [Nat.add Nat.modulo Nat.divmod fst snd Nat.sub nth int_value] in H. unfold zc_sample in H. change (IZR (2 mod 2)) with 0 in H. cbn [INR] in H.
  unfold cis in H. injection H as H _. match type of H with cos ?a = cos ?b => assert (A : a = 0) by field; assert (B : b = - (PI / 2)) by field; rewrite A, B in H end. rewrite cos_neg, cos_0, cos_PI2 in H. lra.
Qed.

Lemma C61_times_proof :
(* the N sample times are (x - N/2)/Fs, the same for all filters; t = 0 is among them exactly if N is even and positive; Fs = 0 raises *)
  forall (N : nat) (alpha Ts Fs : R),
    (Fs <> 0 -> exists times h1 h2 h3 h4, rcosfilter N alpha Ts Fs = Ok (times, h1) /\ rrcosfilter N alpha Ts Fs = Ok (times, h2) /\ gaussianfilter N alpha Fs = Ok (times, h3) /\ rectfilter N Fs = Ok (times, h4) /\
       length times = N /\ length h1 = N /\ length h2 = N /\ length h3 = N /\ h4 = repeat 1 N /\ (forall x, (x < N)%nat -> nth x times 0 = (INR x - INR N / 2) / Fs) /\ (In 0 times <-> Nat.Even N /\ (1 <= N)%nat)) /\
    (Fs = 0 -> rcosfilter N alpha Ts Fs = Err ZeroDivisionError /\ rrcosfilter N alpha Ts Fs = Err ZeroDivisionError /\ gaussianfilter N alpha Fs = Err ZeroDivisionError /\ rectfilter N Fs = Err ZeroDivisionError).
Proof.
  intros N alpha Ts Fs. unfold rcosfilter, rrcosfilter, gaussianfilter, rectfilter, with_times. destruct (Req_EM_T Fs 0) as [E|E]; split; try contradiction; [auto|]. intros _. eexists _, _, _, _, _. split; [reflexivity|]. split; [reflexivity|]. split; [reflexivity|]. split; [reflexivity|]. rewrite !map_length, !seq_length. repeat (split; [reflexivity|]). split; [|split].
  - clear. assert (forall s, map (fun _ : nat => 1) (seq s N) = repeat 1 N) as H; [|apply H]. induction N as [|N IH]; intros s; [reflexivity|]. cbn [seq map repeat]. f_equal. apply IH.
  - intros x Hx. rewrite nth_map_seq by exact Hx. unfold time_of. field. exact E.
  - rewrite in_map_iff. split.
    + intros (x & H & Hx). apply in_seq in Hx. unfold time_of in H. assert (X : INR x = INR N / 2). { apply Rmult_integral in H as [H|H]; [lra|]. exfalso. assert (1 / Fs <> 0) by (unfold Rdiv; rewrite Rmult_1_l; apply Rinv_neq_0_compat, E). contradiction. }
      split; [|lia]. exists x. apply INR_eq. rewrite mult_INR. cbn [INR]. lra.
    + intros ((x & ->) & H). exists x. split; [|apply in_seq; lia]. unfold time_of. rewrite mult_INR. cbn [INR]. field. exact E.
Qed.

Lemma C61_raised_cosine_proof :
(* the samples are the values, at the sample times, of one continuous even function: the raised cosine, with its singularities removed *)
  forall (alpha Ts : R), Ts <> 0 -> exists h : R -> R, continuity h /\ (forall t, h (- t) = h t) /\ h 0 = 1 /\ (forall k : Z, k <> 0%Z -> h (IZR k * Ts) = 0) /\
    (forall t, t <> 0 -> (2 * alpha * t / Ts) * (2 * alpha * t / Ts) <> 1 -> h t = sin (PI * t / Ts) / (PI * t / Ts) * (cos (PI * alpha * t / Ts) / (1 - (2 * alpha * t / Ts) * (2 * alpha * t / Ts)))) /\
    forall (N : nat) (Fs : R), Fs <> 0 -> exists times, rcosfilter N alpha Ts Fs = Ok (times, map (fun t => Some (h t)) times).
Proof.
  intros alpha Ts HT. exists (rc alpha Ts). split; [apply rc_cont, HT|]. split; [|split; [|split; [|split]]].
  - intros t. unfold rc. replace (PI * - t / Ts) with (- (PI * t / Ts)) by (field; exact HT). replace (2 * alpha * - t / Ts) with (- (2 * alpha * t / Ts)) by (field; exact HT). rewrite sinc0_even, roll_even. reflexivity.
  - pose proof (rcos_some alpha Ts 0 HT) as H. unfold rcos_sample in H. destruct (Req_EM_T 0 0); [|lra]. injection H as H. symmetry. exact H.
  - intros k Hk. apply rc_nyquist; assumption.
  - intros t Ht Hw. assert (Hpi := PI_RGT_0). unfold rc, sinc0, roll. destruct (Req_EM_T (PI * t / Ts) 0) as [Z|_]; [exfalso; apply Ht; apply (Rmult_eq_reg_l (PI / Ts)); [replace (PI / Ts * t) with (PI * t / Ts) by (field; exact HT); rewrite Z; ring|unfold Rdiv; apply Rmult_integral_contrapositive; split; [lra|apply Rinv_neq_0_compat, HT]]|]. destruct (Req_EM_T _ 0) as [Z|_]; [exfalso; apply Hw; lra|]. do 3 f_equal. field. exact HT.
  - intros N Fs HF. exists (map (time_of N Fs) (seq 0 N)). unfold rcosfilter, with_times. destruct (Req_EM_T Fs 0); [contradiction|]. do 2 f_equal. rewrite map_map. apply map_ext. intros x. apply rcos_some, HT.
Qed.

Lemma C61_nyquist_samples_proof :
(* an even length and a whole number k of samples per symbol: the centre sample is 1 and every other symbol-spaced sample is 0 *)
  forall (half k : nat) (alpha Ts Fs : R), (1 <= k)%nat -> Fs <> 0 -> Ts * Fs = INR k -> exists times h, rcosfilter (2 * half) alpha Ts Fs = Ok (times, h) /\ length h = (2 * half)%nat /\
    forall j : Z, (0 <= Z.of_nat half + j * Z.of_nat k < 2 * Z.of_nat half)%Z -> nth (Z.to_nat (Z.of_nat half + j * Z.of_nat k)) h None = Some (if (j =? 0)%Z then 1 else 0).
Proof.
  intros half k alpha Ts Fs Hk HF HE. assert (HT : Ts <> 0). { intros Z. rewrite Z, Rmult_0_l in HE. symmetry in HE. apply (INR_eq k 0) in HE. lia. } destruct (C61_raised_cosine_proof alpha Ts HT) as (h & _ & _ & H0 & HN & _ & H). unfold rcosfilter, with_times in *. destruct (Req_EM_T Fs 0); [contradiction|]. eexists _, _. split; [reflexivity|]. split; [rewrite map_length; apply seq_length|]. intros j Hj. rewrite nth_map_seq by lia.
  destruct (H (2 * half)%nat Fs HF) as (times & E). destruct (Req_EM_T Fs 0); [contradiction|]. injection E as E1 E2. assert (V : rcos_sample alpha Ts (time_of (2 * half) Fs (Z.to_nat (Z.of_nat half + j * Z.of_nat k))) = Some (h (time_of (2 * half) Fs (Z.to_nat (Z.of_nat half + j * Z.of_nat k))))).
  { rewrite <- E1, map_map in E2. assert (Q := f_equal (fun l => nth (Z.to_nat (Z.of_nat half + j * Z.of_nat k)) l None) E2). cbv beta in Q. rewrite !nth_map_seq in Q by lia. exact Q. }
  rewrite V. f_equal. replace (time_of (2 * half) Fs (Z.to_nat (Z.of_nat half + j * Z.of_nat k))) with (IZR j * Ts).
  - destruct (Z.eqb_spec j 0) as [->|Z]; [rewrite Rmult_0_l; exact H0|apply HN, Z].
  - unfold time_of. rewrite INR_IZR_INZ, Z2Nat.id by lia. rewrite plus_IZR, mult_IZR, <- !INR_IZR_INZ, mult_INR, <- HE. cbn [INR]. field. exact HF.
Qed.

Lemma C61_root_raised_cosine_proof :
(* likewise for the root raised cosine *)
  forall (alpha Ts : R), Ts <> 0 -> exists h : R -> R, continuity h /\ (forall t, h (- t) = h t) /\ h 0 = 1 - alpha + 4 * alpha / PI /\
    (forall t, t <> 0 -> (4 * alpha * t / Ts) * (4 * alpha * t / Ts) <> 1 ->
       h t = (sin (PI * t * (1 - alpha) / Ts) + 4 * alpha * (t / Ts) * cos (PI * t * (1 + alpha) / Ts)) / (PI * t * (1 - (4 * alpha * t / Ts) * (4 * alpha * t / Ts)) / Ts)) /\
    forall (N : nat) (Fs : R), Fs <> 0 -> exists times, rrcosfilter N alpha Ts Fs = Ok (times, map (fun t => Some (h t)) times).
Proof.
  intros alpha Ts HT. exists (fun t => rrc alpha (t / Ts)). split; [|split; [|split; [|split]]].
  - intros t. apply (continuity_pt_comp (fun t => t / Ts) (rrc alpha)); [|apply rrc_cont]. intros eps He. destruct (d_cont _ _ _ (d_lin (/ Ts) t) eps He) as (d & Hd & P). exists d. split; [exact Hd|]. intros y Hy. specialize (P y Hy). unfold Rdiv. rewrite !(Rmult_comm _ (/ Ts)). exact P.
  - intros t. replace (- t / Ts) with (- (t / Ts)) by (field; exact HT). apply rrc_even.
  - unfold rrc. replace (0 / Ts) with 0 by (field; exact HT). destruct (Req_EM_T 0 0); [reflexivity|lra].
  - intros t Ht Hw. set (u := t / Ts). assert (T : t = u * Ts) by (unfold u; field; exact HT). assert (Hw' : 4 * alpha * u * (4 * alpha * u) <> 1). { intros F. apply Hw. rewrite <- F. unfold u. field. exact HT. } unfold rrc. destruct (Req_EM_T u 0) as [Z|_]; [exfalso; apply Ht; rewrite T, Z; ring|]. destruct (Req_EM_T _ 0) as [Z|_]; [exfalso; apply Hw'; lra|].
    replace (4 * alpha * t / Ts) with (4 * alpha * u) by (unfold u; field; exact HT). replace (PI * t * (1 - 4 * alpha * u * (4 * alpha * u)) / Ts) with (PI * u * (1 - 4 * alpha * u * (4 * alpha * u))) by (rewrite T; field; exact HT). replace (PI * t * (1 - alpha) / Ts) with (PI * (1 - alpha) * u) by (rewrite T; field; exact HT). replace (PI * t * (1 + alpha) / Ts) with (PI * (1 + alpha) * u) by (rewrite T; field; exact HT). reflexivity.
  - intros N Fs HF. exists (map (time_of N Fs) (seq 0 N)). unfold rrcosfilter, with_times. destruct (Req_EM_T Fs 0); [contradiction|]. do 2 f_equal. rewrite map_map. apply map_ext. intros x. apply rrcos_some, HT.
Qed.

Lemma C61_gaussian_proof :
(* positive, even, largest at 0, decreasing away from 0 *)
  forall (alpha : R), 0 < alpha -> exists h : R -> R, h 0 = sqrt PI / alpha /\ (forall t, 0 < h t <= h 0) /\ (forall t, h (- t) = h t) /\ (forall s t, 0 <= s < t -> h t < h s) /\
    forall (N : nat) (Fs : R), Fs <> 0 -> exists times, gaussianfilter N alpha Fs = Ok (times, map (fun t => Some (h t)) times).
Proof.
  intros alpha Ha. assert (Hpi := PI_RGT_0). set (h := fun t => sqrt PI / alpha * exp (- (PI * t / alpha * (PI * t / alpha)))). assert (K : 0 < sqrt PI / alpha) by (apply Rdiv_lt_0_compat; [apply sqrt_lt_R0, Hpi|exact Ha]).
  assert (H0 : h 0 = sqrt PI / alpha) by (unfold h; replace (- (PI * 0 / alpha * (PI * 0 / alpha))) with 0 by (field; lra); rewrite exp_0; ring). exists h. split; [exact H0|]. split; [|split; [|split]].
  - intros t. rewrite H0. unfold h. split; [apply Rmult_lt_0_compat; [exact K|apply exp_pos]|]. rewrite <- (Rmult_1_r (sqrt PI / alpha)) at 2. apply Rmult_le_compat_l; [lra|]. rewrite <- exp_0. assert (S : 0 <= PI * t / alpha * (PI * t / alpha)) by apply Rle_0_sqr. destruct (Req_EM_T (PI * t / alpha * (PI * t / alpha)) 0) as [E|E]; [rewrite E, Ropp_0; lra|]. apply Rlt_le, exp_increasing. lra.
  - intros t. unfold h. do 3 f_equal. field. lra.
  - intros s t Hst. unfold h. apply Rmult_lt_compat_l; [exact K|]. apply exp_increasing. apply Ropp_lt_contravar. assert (Q : 0 < PI / alpha) by (apply Rdiv_lt_0_compat; lra). replace (PI * s / alpha) with (PI / alpha * s) by (field; lra). replace (PI * t / alpha) with (PI / alpha * t) by (field; lra). assert (0 <= PI / alpha * s) by (apply Rmult_le_pos; lra). assert (PI / alpha * s < PI / alpha * t) by (apply Rmult_lt_compat_l; lra). nra.
  - intros N Fs HF. exists (map (time_of N Fs) (seq 0 N)). unfold gaussianfilter, with_times. destruct (Req_EM_T Fs 0); [contradiction|]. do 2 f_equal. rewrite map_map. apply map_ext. intros x. unfold gaussian_sample. rewrite !np_div_some by lra. reflexivity.
Qed.

Lemma C62_offset_proof :
forall (w : list C) (Fs d : R), Fs <> 0 -> exists y, add_frequency_offset w Fs d = Ok y /\ length y = length w /\
    (forall i, (i < length w)%nat -> Cabs (nth i y C0) = Cabs (nth i w C0) /\ nth i y C0 = (nth i w C0 * cis (2 * PI * d * INR i / Fs))%C) /\
    (forall d', add_frequency_offset y Fs d' = add_frequency_offset w Fs (d + d')) /\ add_frequency_offset y Fs (- d) = Ok w /\ (forall k : Z, add_frequency_offset w Fs (d + IZR k * Fs) = Ok y) /\ signal_power y = signal_power w.
Proof.
  intros w Fs d HF. rewrite offset_eq by exact HF. eexists. split; [reflexivity|]. assert (L : length (map (fun i => (nth i w C0 * cis (2 * PI * (d / Fs) * INR i))%C) (seq 0 (length w))) = length w) by (rewrite map_length; apply seq_length). split; [exact L|].
  assert (COMP : forall d', add_frequency_offset (map (fun i => (nth i w C0 * cis (2 * PI * (d / Fs) * INR i))%C) (seq 0 (length w))) Fs d' = add_frequency_offset w Fs (d + d')).
  { intros d'. rewrite !offset_eq by exact HF. f_equal. rewrite L. apply map_ext_in. intros i Hi. apply in_seq in Hi. rewrite nth_map_seq by lia. replace (2 * PI * ((d + d') / Fs) * INR i) with (2 * PI * (d / Fs) * INR i + 2 * PI * (d' / Fs) * INR i) by (field; exact HF). rewrite cis_add. ring. }
  split; [|split; [exact COMP|split; [|split]]].
  - intros i Hi. rewrite nth_map_seq by exact Hi. rewrite Cabs_mul, Cabs_cis. split; [ring|]. do 2 f_equal. field. exact HF.
  - rewrite COMP, offset_eq by exact HF. f_equal. transitivity (map (fun j => nth j w C0) (seq 0 (length w))); [|apply map_nth_seq_id]. apply map_ext. intros i. replace (2 * PI * ((d + - d) / Fs) * INR i) with 0 by (field; exact HF). rewrite cis_0. ring.
  - intros k. rewrite offset_eq by exact HF. f_equal. apply map_ext. intros i. f_equal. rewrite <- (cis_period (2 * PI * (d / Fs) * INR i) (k * Z.of_nat i)). f_equal. rewrite mult_IZR, <- INR_IZR_INZ. field. exact HF.
  - destruct w as [|z w]; [reflexivity|]. rewrite !power_eq by (try discriminate; cbn; discriminate). rewrite L. do 2 f_equal. rewrite map_map. transitivity (Rsum (map Cnorm2 (map (fun j => nth j (z :: w) C0) (seq 0 (length (z :: w)))))); [|rewrite map_nth_seq_id; reflexivity]. rewrite map_map. apply Rsum_map_ext. intros i _. rewrite Cnorm2_mul, Cnorm2_cis. ring.
Qed.

Lemma C62_zero_rate_proof :
forall w d, add_frequency_offset w 0 d = Err ZeroDivisionError.
Proof.
  intros w d. unfold add_frequency_offset. destruct (Req_EM_T 0 0); [reflexivity|lra].
Qed.

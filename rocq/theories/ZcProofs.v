(* Sums over a period of a quadratic-phase sequence. *)
From Verif Require Import Base Cplx DspModel.
Open Scope R_scope.

(* sum over n = 0 .. N-1 of f n, f defined on the integers *)
Definition psum (N : nat) (f : Z -> C) : C := Csum (map (fun n => f (Z.of_nat n)) (seq 0 N)).
Lemma psum_ext : forall N f g, (forall n, (0 <= n < Z.of_nat N)%Z -> f n = g n) -> psum N f = psum N g.
Proof. intros N f g H. apply Csum_map_ext. intros n Hn. apply in_seq in Hn. apply H. lia. Qed.
Lemma psum_mul : forall N k f, psum N (fun n => k * f n)%C = (k * psum N f)%C.
Proof. intros. apply Csum_map_mul. Qed.
Lemma psum_conj : forall N f, Cconj (psum N f) = psum N (fun n => Cconj (f n)).
Proof. intros. unfold psum. rewrite Csum_conj, map_map. reflexivity. Qed.
Lemma psum_swap : forall N M (f : Z -> Z -> C), psum N (fun n => psum M (f n)) = psum M (fun m => psum N (fun n => f n m)).
Proof. intros. unfold psum. apply Csum_swap. Qed.
Lemma psum_first : forall N f, (1 <= N)%nat -> psum N f = (f 0%Z + Csum (map (fun n => f (Z.of_nat n)) (seq 1 (N - 1))))%C.
Proof. intros N f H. destruct N; [lia|]. unfold psum. cbn [seq map Csum fold_right]. rewrite Nat.sub_succ, Nat.sub_0_r. reflexivity. Qed.
Lemma psum_shift1 : forall N f, (forall n, f (n + Z.of_nat N)%Z = f n) -> psum N (fun n => f (n + 1)%Z) = psum N f.
Proof.
  intros N f H. destruct N as [|N]; [reflexivity|]. rewrite (psum_first (S N) f) by lia. unfold psum. rewrite seq_S, map_app, Csum_app. cbn [map Csum fold_right]. rewrite Nat.add_0_l.
  replace (f (Z.of_nat N + 1)%Z) with (f 0%Z) by (rewrite <- (H 0%Z); f_equal; lia). rewrite Nat.sub_succ, Nat.sub_0_r, <- seq_shift, map_map.
  rewrite (Csum_map_ext (fun n => f (Z.of_nat n + 1)%Z) (fun x => f (Z.of_nat (S x)))); [|intros n _; f_equal; lia]. ring.
Qed.
Lemma psum_shift : forall N f e, (forall n, f (n + Z.of_nat N)%Z = f n) -> psum N (fun n => f (n + e)%Z) = psum N f.
Proof.
  intros N f e H. assert (P : forall k : nat, psum N (fun n => f (n + Z.of_nat k)%Z) = psum N f).
  { induction k as [|k IH]; [apply psum_ext; intros; f_equal; lia|]. rewrite <- IH. rewrite <- (psum_shift1 N (fun n => f (n + Z.of_nat k)%Z)); [apply psum_ext; intros; f_equal; lia|]. intros n. replace (n + Z.of_nat N + Z.of_nat k)%Z with (n + Z.of_nat k + Z.of_nat N)%Z by lia. apply H. }
  destruct (Z_le_gt_dec 0 e) as [He|He]; [rewrite <- (Z2Nat.id e He); apply P|].
  assert (Q : forall k : nat, psum N (fun n => f (n - Z.of_nat k)%Z) = psum N f).
  { induction k as [|k IH]; [apply psum_ext; intros; f_equal; lia|]. rewrite <- IH. symmetry. rewrite <- (psum_shift1 N (fun n => f (n - Z.of_nat (S k))%Z)); [apply psum_ext; intros; f_equal; lia|]. intros n. replace (n + Z.of_nat N - Z.of_nat (S k))%Z with (n - Z.of_nat (S k) + Z.of_nat N)%Z by lia. apply H. }
  rewrite <- (Q (Z.to_nat (- e))). apply psum_ext. intros. f_equal. lia.
Qed.
(* a full sum of powers of a root of unity other than 1 *)
Lemma root_sum : forall (N : nat) (j : Z), (1 <= N)%nat -> (j mod Z.of_nat N <> 0)%Z -> psum N (fun n => cis (2 * PI * IZR j * IZR n / INR N)) = C0.
Proof.
  intros N j HN Hj. assert (N0 : INR N <> 0) by (apply not_0_INR; lia). assert (Hpi := PI_RGT_0).
  set (f := fun n : Z => cis (2 * PI * IZR j * IZR n / INR N)). set (w := cis (2 * PI * IZR j / INR N)).
  assert (E : psum N f = (w * psum N f)%C).
  { rewrite <- (psum_shift N f 1) at 1.
    - rewrite <- psum_mul. apply psum_ext. intros n _. unfold f, w. rewrite <- cis_add. f_equal. rewrite plus_IZR. field. exact N0.
    - intros n. unfold f. replace (2 * PI * IZR j * IZR (n + Z.of_nat N) / INR N) with (2 * PI * IZR j * IZR n / INR N + 2 * PI * IZR j); [apply cis_period|]. rewrite plus_IZR, <- INR_IZR_INZ. field. exact N0. }
  assert (W : (C1 - w)%C <> C0).
  { intros F. assert (F' : w = C1) by (replace w with (C1 - (C1 - w))%C by ring; rewrite F; ring). apply cis_eq_1 in F' as [k Hk]. apply Hj. assert (IZR j = IZR (k * Z.of_nat N)) as G. { rewrite mult_IZR, <- INR_IZR_INZ. apply (Rmult_eq_reg_l (2 * PI)); [|lra]. replace (2 * PI * IZR j) with (2 * PI * IZR j / INR N * INR N) by (field; exact N0). rewrite Hk. ring. }
    apply eq_IZR in G. rewrite G. apply Z.mod_mul. lia. }
  assert (P : ((C1 - w) * psum N f)%C = C0) by (replace ((C1 - w) * psum N f)%C with (psum N f - w * psum N f)%C by ring; rewrite <- E; ring).
  apply Cnorm2_0. apply (f_equal Cnorm2) in P. rewrite Cnorm2_mul, Cnorm2_C0 in P. apply Rmult_integral in P as [P|P]; [|exact P]. exfalso. apply W, Cnorm2_0, P.
Qed.
Lemma root_sum_full : forall (N : nat) (j : Z), (1 <= N)%nat -> (j mod Z.of_nat N = 0)%Z -> psum N (fun n => cis (2 * PI * IZR j * IZR n / INR N)) = ofR (INR N).
Proof.
  intros N j HN Hj. assert (N0 : INR N <> 0) by (apply not_0_INR; lia). apply Z.mod_divide in Hj as [k ->]; [|lia].
  rewrite (psum_ext _ _ (fun _ => C1)).
  - unfold psum. clear. assert (forall l : list nat, Csum (map (fun _ => C1) l) = ofR (INR (length l))) as H; [|rewrite H, seq_length; reflexivity]. induction l as [|x l IH]; cbn [map Csum fold_right length]; [reflexivity|]. unfold Csum in IH. rewrite IH, S_INR. creal.
  - intros n _. rewrite <- (cis_2PI (k * n)). f_equal. rewrite !mult_IZR, <- INR_IZR_INZ. field. exact N0.
Qed.
(* a periodic sequence whose lagged products are exponentials with a multiplier coprime to the period has a flat sum *)
Lemma gauss_flat : forall (N : nat) (a : Z -> C) (c : Z -> C) (w : Z), (1 <= N)%nat -> Z.gcd w (Z.of_nat N) = 1%Z -> (forall n, a (n + Z.of_nat N)%Z = a n) ->
  (forall n e, (a (n + e)%Z * Cconj (a n))%C = (c e * cis (2 * PI * IZR (w * e) * IZR n / INR N))%C) -> Cnorm2 (a 0%Z) = 1 -> Cnorm2 (psum N a) = INR N.
Proof.
  intros N a c w HN Hg HP HA H1. assert (N0 : INR N <> 0) by (apply not_0_INR; lia).
  assert (S : (psum N a * Cconj (psum N a))%C = ofR (INR N)).
  { rewrite psum_conj, <- psum_mul.
    rewrite (psum_ext N _ (fun n => psum N (fun e => c e * cis (2 * PI * IZR (w * e) * IZR n / INR N))%C)).
    2:{ intros n _. rewrite <- (psum_shift N a n HP). replace (psum N (fun x => a (x + n)%Z) * Cconj (a n))%C with (Cconj (a n) * psum N (fun x => a (x + n)%Z))%C by ring. rewrite <- psum_mul. apply psum_ext. intros e _. rewrite <- HA. rewrite (Z.add_comm e n). ring. }
    rewrite psum_swap. rewrite (psum_ext N _ (fun e => c e * psum N (fun n => cis (2 * PI * IZR (w * e) * IZR n / INR N)))%C) by (intros e _; apply psum_mul).
    rewrite psum_first by exact HN. rewrite (Csum_map_ext _ (fun _ => C0)).
    - rewrite Csum_map_0. rewrite root_sum_full by (try exact HN; rewrite Z.mul_0_r; apply Z.mod_0_l; lia).
      assert (C : c 0%Z = C1). { specialize (HA 0%Z 0%Z). rewrite Z.add_0_l in HA. replace (2 * PI * IZR (w * 0) * IZR 0 / INR N) with 0 in HA by (rewrite Z.mul_0_r; field; exact N0). rewrite cis_0 in HA. replace (c 0%Z * C1)%C with (c 0%Z) in HA by ring. rewrite <- HA. unfold Cnorm2 in H1. creal; lra. }
      rewrite C. ring.
    - intros e He. apply in_seq in He. rewrite root_sum; [ring|exact HN|]. intros F. apply Z.mod_divide in F; [|lia]. apply (Z.gauss (Z.of_nat N) w (Z.of_nat e)) in F; [|rewrite Z.gcd_comm; exact Hg]. apply Z.divide_pos_le in F; lia. }
  apply (f_equal re) in S. cbn [ofR re Cmul Cconj im] in S. unfold Cnorm2. lra.
Qed.

(* ---------------------------------------------------------------- the Zadoff-Chu phases *)
Definition zc (u N q n : Z) : C := cis (- (PI * IZR u * IZR n * (IZR n + IZR (N mod 2) + 2 * IZR q) / IZR N)).
Lemma zc_sample_eq : forall u N q n, zc_sample u N q n = zc u N q (Z.of_nat n).
Proof. intros. unfold zc_sample, zc. rewrite INR_IZR_INZ. reflexivity. Qed.
Lemma zc_period : forall u N q n, (1 <= N)%Z -> zc u N q (n + N)%Z = zc u N q n.
Proof.
  intros u N q n HN. assert (N0 : IZR N <> 0) by (apply IZR_neq; lia). unfold zc.
  assert (E : exists k, (u * (2 * n + N + N mod 2 + 2 * q) = 2 * k)%Z). { pose proof (Z.div_mod N 2 ltac:(lia)) as D. exists (u * (n + N / 2 + N mod 2 + q))%Z. lia. }
  destruct E as [k Hk]. rewrite <- (cis_period (- (PI * IZR u * IZR n * (IZR n + IZR (N mod 2) + 2 * IZR q) / IZR N)) (- k)). f_equal.
  apply (f_equal IZR) in Hk. rewrite !mult_IZR, !plus_IZR, !mult_IZR in Hk. rewrite opp_IZR, plus_IZR. apply (Rmult_eq_reg_r (IZR N)); [|exact N0]. field_simplify; [|exact N0|exact N0].
  replace (PI * IZR u) with (IZR u * PI) by ring.
  transitivity (- IZR u * PI * (IZR n * IZR n + IZR n * IZR (N mod 2) + 2 * IZR n * IZR q) - PI * IZR N * (IZR u * (2 * IZR n + IZR N + IZR (N mod 2) + 2 * IZR q))); [ring|]. rewrite Hk. ring.
Qed.
Lemma zc_period_mult : forall u N q n k, (1 <= N)%Z -> zc u N q (n + k * N)%Z = zc u N q n.
Proof.
  intros u N q n k HN. assert (P : forall m : nat, forall n, zc u N q (n + Z.of_nat m * N)%Z = zc u N q n).
  { induction m as [|m IH]; intros x; [f_equal; lia|]. rewrite <- (IH x). rewrite <- (zc_period u N q (x + Z.of_nat m * N) HN). f_equal. lia. }
  destruct (Z_le_gt_dec 0 k); [rewrite <- (Z2Nat.id k) by lia; apply P|]. rewrite <- (P (Z.to_nat (- k)) (n + k * N)%Z). f_equal. rewrite Z2Nat.id by lia. lia.
Qed.
Lemma zc_mod : forall u N q n, (1 <= N)%Z -> zc u N q (n mod N) = zc u N q n.
Proof. intros u N q n HN. rewrite (Z.div_mod n N) at 2 by lia. rewrite Z.add_comm, Z.mul_comm. symmetry. apply zc_period_mult, HN. Qed.
(* lagged product *)
Lemma zc_lag : forall u N q n e, (1 <= N)%Z -> (zc u N q (n + e) * Cconj (zc u N q n))%C = (zc u N q e * cis (2 * PI * IZR (- u * e) * IZR n / IZR N))%C.
Proof.
  intros u N q n e HN. assert (N0 : IZR N <> 0) by (apply IZR_neq; lia). unfold zc. rewrite <- cis_opp, <- !cis_add. f_equal. rewrite mult_IZR, opp_IZR, plus_IZR. field. exact N0.
Qed.
Lemma zc_shift : forall u N q n, (1 <= N)%Z -> zc u N q n = (zc u N 0 (n + q) * Cconj (zc u N 0 q))%C.
Proof.
  intros u N q n HN. assert (N0 : IZR N <> 0) by (apply IZR_neq; lia). unfold zc. rewrite <- cis_opp, <- !cis_add. f_equal. rewrite plus_IZR. field. exact N0.
Qed.
Lemma zc_autocorr : forall u N q d, (1 <= N)%Z -> Z.gcd u N = 1%Z -> (d mod N <> 0)%Z -> psum (Z.to_nat N) (fun n => zc u N q (n + d) * Cconj (zc u N q n))%C = C0.
Proof.
  intros u N q d HN Hg Hd. rewrite (psum_ext _ _ (fun n => zc u N q d * cis (2 * PI * IZR (- u * d) * IZR n / INR (Z.to_nat N)))%C) by (intros n _; rewrite zc_lag by exact HN; rewrite INR_IZR_INZ, Z2Nat.id by lia; reflexivity).
  rewrite psum_mul, root_sum; [ring|lia|]. rewrite Z2Nat.id by lia. intros F. apply Hd. apply Z.mod_divide in F; [|lia]. apply (Z.gauss N (- u) d) in F; [|rewrite Z.gcd_opp_r, Z.gcd_comm; exact Hg]. apply Z.mod_divide; [lia|exact F].
Qed.

(* Channels: matrices, the fading setters. *)
From Verif Require Import Base UtilModel UtilProofs Cplx ModemModel ModemProofs MimoModel MimoProofs ChannelModel ChannelSpec.
Open Scope Z_scope.

(* ---------------------------------------------------------------- traces *)
Lemma shape_row : forall r c m i, shape r c m -> (i < r)%nat -> length (nth i m []) = c.
Proof. intros r c m i (H1 & H2) Hi. rewrite Forall_forall in H2. apply H2, nth_In. lia. Qed.
Lemma transpose_entry : forall n m i j, shape n n m -> (i < n)%nat -> (j < n)%nat -> entry (np_transpose m) i j = entry m j i.
Proof.
  intros n m i j H Hi Hj. unfold entry, np_transpose. assert (L : length (hd [] m) = n) by (replace (hd [] m) with (nth 0 m []) by (destruct m; reflexivity); apply (shape_row n n); [exact H|lia]).
  rewrite L, nth_map_seq by exact Hi. unfold column. destruct H as (H1 & _). rewrite (nth_map_lt _ _ _ [] C0) by lia. reflexivity.
Qed.
Lemma transpose_shape : forall n m, shape n n m -> shape n n (np_transpose m).
Proof.
  intros n m H. destruct n as [|n].
  - destruct H as (H & _). destruct m; [|discriminate]. split; [reflexivity|constructor].
  - unfold np_transpose. assert (L : length (hd [] m) = S n) by (replace (hd [] m) with (nth 0 m []) by (destruct m; reflexivity); apply (shape_row (S n) (S n)); [exact H|lia]). destruct H as (H & _). split; [rewrite map_length, seq_length; exact L|]. apply Forall_map, Forall_forall. intros k _. unfold column. rewrite map_length. exact H.
Qed.
Lemma kron_entry : forall n m a b i k j l, shape n n a -> shape m m b -> (i < n)%nat -> (j < n)%nat -> (k < m)%nat -> (l < m)%nat ->
  entry (np_kron a b) (i * m + k) (j * m + l) = (entry a i j * entry b k l)%C.
Proof.
  intros n m a b i k j l (A1 & A2) (B1 & B2) Hi Hj Hk Hl. unfold entry at 1, np_kron. rewrite flat_map_concat_map. rewrite concat_nth_uniform.
  - rewrite (nth_map_lt _ _ _ [] []) by lia. rewrite (nth_map_lt _ _ _ [] []) by lia. rewrite flat_map_concat_map, concat_nth_uniform.
    + assert (La : length (nth i a []) = n) by (apply (shape_row n n); [split; assumption|lia]). assert (Lb : length (nth k b []) = m) by (apply (shape_row m m); [split; assumption|lia]). rewrite (nth_map_lt _ _ _ C0 []) by lia. rewrite (nth_map_lt _ _ _ C0 C0) by lia. reflexivity.
    + intros x Hx. apply in_map_iff in Hx as (z & <- & _). rewrite map_length. apply (shape_row m m); [split; assumption|lia].
    + exact Hl.
  - intros x Hx. apply in_map_iff in Hx as (z & <- & _). rewrite map_length. exact B1.
  - exact Hk.
Qed.
Lemma kron_length : forall n m a b, shape n n a -> shape m m b -> length (np_kron a b) = (n * m)%nat.
Proof.
  intros n m a b (A1 & _) (B1 & _). unfold np_kron. rewrite flat_map_concat_map. rewrite (concat_length_uniform m), map_length; [lia|]. intros x Hx. apply in_map_iff in Hx as (z & <- & _). rewrite map_length. exact B1.
Qed.
Lemma nlos_trace : forall n m f, shape n n (f_rt f) -> shape m m (f_rr f) -> nlos f = (diag_sum n (f_rt f) * diag_sum m (f_rr f))%C.
Proof.
  intros n m f Ht Hr. unfold nlos, np_trace. pose proof (transpose_shape n _ Ht) as Ht'. rewrite (kron_length n m) by assumption. rewrite Csum_blocks. unfold diag_sum.
  transitivity (Csum (map (fun i => (diag_sum m (f_rr f) * entry (f_rt f) i i)%C) (seq 0 n))).
  - apply Csum_map_ext. intros i Hi. apply in_seq in Hi. unfold diag_sum. rewrite (Csum_map_ext _ (fun k => (entry (f_rt f) i i * entry (f_rr f) k k)%C)).
    + rewrite Csum_map_mul. ring.
    + intros k Hk. apply in_seq in Hk. pose proof (kron_entry n m _ _ i k i k Ht' Hr ltac:(lia) ltac:(lia) ltac:(lia) ltac:(lia)) as E. unfold entry at 1 in E. rewrite E, (transpose_entry n) by (assumption || lia). reflexivity.
  - rewrite Csum_map_mul. unfold diag_sum. ring.
Qed.
Lemma los_energy : forall f, los f = energy_of (m_rows (f_mean f)).
Proof. intros f. unfold los, abs2_sum, energy_of. apply Rsum_map_ext. intros row _. apply Rsum_map_ext. intros z _. apply Cabs_sqr. Qed.
Lemma energy_shape : forall n m f, shape n n (f_rt f) -> shape m m (f_rr f) -> (nlos f + ofR (los f))%C = total_energy n m f.
Proof. intros n m f Ht Hr. unfold total_energy. rewrite (nlos_trace n m) by assumption. rewrite los_energy. reflexivity. Qed.

(* ---------------------------------------------------------------- matrices given by a formula *)
Definition build (r c : nat) (g : nat -> nat -> C) : list (list C) := map (fun i => map (fun j => g i j) (seq 0 c)) (seq 0 r).
Lemma build_shape : forall r c g, shape r c (build r c g).
Proof. intros r c g. unfold build. split; [rewrite map_length; apply seq_length|]. apply Forall_map, Forall_forall. intros i _. rewrite map_length. apply seq_length. Qed.
Lemma build_entry : forall r c g i j, (i < r)%nat -> (j < c)%nat -> entry (build r c g) i j = g i j.
Proof. intros r c g i j Hi Hj. unfold entry, build. rewrite nth_map_seq by exact Hi. rewrite nth_map_seq by exact Hj. reflexivity. Qed.
Lemma build_diag : forall n g, diag_sum n (build n n g) = Csum (map (fun i => g i i) (seq 0 n)).
Proof. intros n g. unfold diag_sum. apply Csum_map_ext. intros i Hi. apply in_seq in Hi. apply build_entry; lia. Qed.
Lemma Csum_const : forall (k : C) n a, Csum (map (fun _ => k) (seq a n)) = Cscale (INR n) k.
Proof. intros k n. induction n as [|n IH]; intros a; [cbn; creal|]. cbn [seq map Csum fold_right]. fold (Csum (map (fun _ : nat => k) (seq (S a) n))). rewrite IH, S_INR. creal. Qed.
Lemma build_ext : forall r c g g', (forall i j, (i < r)%nat -> (j < c)%nat -> g i j = g' i j) -> build r c g = build r c g'.
Proof. intros r c g g' H. unfold build. apply map_ext_in. intros i Hi. apply in_seq in Hi. apply map_ext_in. intros j Hj. apply in_seq in Hj. apply H; lia. Qed.
Lemma shape_build : forall r c m, shape r c m -> m = build r c (entry m).
Proof.
  intros r c m H. apply (nth_ext _ _ [] []); [unfold build; rewrite map_length, seq_length; apply H|]. intros i Hi. destruct H as (H1 & H2). unfold build. rewrite nth_map_seq by lia. rewrite Forall_forall in H2. specialize (H2 _ (nth_In m [] Hi)).
  apply (nth_ext _ _ C0 C0); [rewrite map_length, seq_length; exact H2|]. intros j Hj. rewrite nth_map_seq by lia. reflexivity.
Qed.
Lemma identity_build : forall n, identity n = build n n (fun i j => if (i =? j)%nat then C1 else C0). Proof. reflexivity. Qed.
Lemma zeros_build : forall r c, zeros r c = build r c (fun _ _ => C0).
Proof.
  intros r c. unfold zeros, build. assert (E : forall k : nat, map (fun _ : nat => C0) (seq k c) = repeat C0 c). { induction c as [|c IH]; intros k; [reflexivity|]. cbn [seq map repeat]. rewrite IH. reflexivity. }
  rewrite E. generalize 0%nat. induction r as [|r IH]; intros a; [reflexivity|]. cbn [seq map repeat]. rewrite <- (IH (S a)). reflexivity.
Qed.
Lemma expo_build : forall n z, expo_matrix n z = build n n (fun i j => CpowZ z (Z.of_nat j - Z.of_nat i)). Proof. reflexivity. Qed.
Lemma decay_build : forall n b, decay n b = build n n (fun i j => ofR (exp (- b * Rabs (INR j - INR i)))). Proof. reflexivity. Qed.
Lemma scale_build : forall r c x g, mat_scale x (build r c g) = build r c (fun i j => Cscale x (g i j)).
Proof. intros r c x g. unfold mat_scale, build. rewrite map_map. apply map_ext. intros i. rewrite map_map. reflexivity. Qed.
Lemma mul_build : forall r c g g', mat_mul_elt (build r c g) (build r c g') = build r c (fun i j => (g i j * g' i j)%C).
Proof.
  intros r c g g'. unfold mat_mul_elt, build. assert (CM : forall A B D (f : A -> B) (f' : A -> D) l, combine (map f l) (map f' l) = map (fun x => (f x, f' x)) l) by (intros A B D f f' l; induction l as [|x l IH]; [reflexivity|]; cbn [map combine]; rewrite IH; reflexivity).
  rewrite CM, map_map. apply map_ext. intros i. cbn [fst snd]. rewrite CM, map_map. reflexivity.
Qed.
Lemma energy_build_0 : forall r c, energy_of (build r c (fun _ _ => C0)) = 0%R.
Proof.
  intros r c. unfold energy_of, build. rewrite map_map. rewrite (Rsum_map_ext _ (fun _ => 0%R)); [rewrite Rsum_const; ring|]. intros i _. rewrite map_map. rewrite (Rsum_map_ext _ (fun _ => 0%R)); [rewrite Rsum_const; ring|]. intros j _. apply Cnorm2_C0.
Qed.
Lemma energy_scale : forall x m, energy_of (mat_scale x m) = (x * x * energy_of m)%R.
Proof.
  intros x m. unfold energy_of, mat_scale. rewrite map_map, <- Rsum_map_mul. apply Rsum_map_ext. intros row _. rewrite map_map, <- Rsum_map_mul. apply Rsum_map_ext. intros z _. unfold Cnorm2, Cscale. cbn [re im]. ring.
Qed.
Lemma scale_shape : forall r c x m, shape r c m -> shape r c (mat_scale x m).
Proof. intros r c x m (H1 & H2). split; [unfold mat_scale; rewrite map_length; exact H1|]. unfold mat_scale. apply Forall_map. eapply Forall_impl; [|exact H2]. intros row H. cbv beta in *. rewrite map_length. exact H. Qed.
Lemma CpowZ_0 : forall z, CpowZ z 0 = C1. Proof. reflexivity. Qed.
Lemma expo_diag : forall n z, diag_sum n (expo_matrix n z) = ofR (INR n).
Proof. intros n z. rewrite expo_build, build_diag. rewrite (Csum_map_ext _ (fun _ => C1)) by (intros i _; rewrite Z.sub_diag; reflexivity). rewrite Csum_const. creal. Qed.
Lemma identity_diag : forall n, diag_sum n (identity n) = ofR (INR n).
Proof. intros n. rewrite identity_build, build_diag. rewrite (Csum_map_ext _ (fun _ => C1)) by (intros i _; rewrite Nat.eqb_refl; reflexivity). rewrite Csum_const. creal. Qed.
Lemma scale_diag : forall n x m, shape n n m -> diag_sum n (mat_scale x m) = Cscale x (diag_sum n m).
Proof.
  intros n x m H. rewrite (shape_build n n m H) at 1. rewrite scale_build, build_diag. unfold diag_sum. transitivity (Csum (map (fun i => (ofR x * entry m i i)%C) (seq 0 n))); [apply Csum_map_ext; intros; creal|]. rewrite Csum_map_mul. creal.
Qed.
Lemma decay_mul_diag : forall n b m, shape n n m -> diag_sum n (mat_mul_elt m (decay n b)) = diag_sum n m.
Proof.
  intros n b m H. rewrite (shape_build n n m H) at 1. rewrite decay_build, mul_build, build_diag. unfold diag_sum. apply Csum_map_ext. intros i _. rewrite Rminus_eq_0, Rabs_R0, Rmult_0_r, exp_0. creal.
Qed.
Lemma decay_mul_shape : forall n b m, shape n n m -> shape n n (mat_mul_elt m (decay n b)).
Proof. intros n b m H. rewrite (shape_build n n m H), decay_build, mul_build. apply build_shape. Qed.

(* ---------------------------------------------------------------- the setter *)
Lemma Cabs_C0 : Cabs C0 = 0%R. Proof. apply Cabs_0. reflexivity. Qed.
(* accepted exactly: energy right, mean not empty *)
Lemma set_exact : forall ch f, (1 <= t_nb ch)%nat -> (1 <= r_nb ch)%nat -> shape (t_nb ch) (t_nb ch) (f_rt f) -> shape (r_nb ch) (r_nb ch) (f_rr f) ->
  shape (r_nb ch) (t_nb ch) (m_rows (f_mean f)) -> total_energy (t_nb ch) (r_nb ch) f = ofR (INR (t_nb ch) * INR (r_nb ch)) ->
  mimo_set ch f = (mimo_with ch f (m_cplx (f_mean f)), Ok tt).
Proof.
  intros ch f Ht Hr S1 S2 S3 E. unfold mimo_set. rewrite (energy_shape (t_nb ch) (r_nb ch)) by assumption. rewrite E. replace (ofR (INR (t_nb ch) * INR (r_nb ch)) - ofR (INR (t_nb ch) * INR (r_nb ch)))%C with C0 by creal. rewrite Cabs_C0.
  destruct (Rlt_dec (1 / 1000) 0) as [?|_]; [lra|]. rewrite andb_false_r. destruct S3 as (L1 & L2). destruct (m_rows (f_mean f)) as [|row rows]; [cbn in L1; lia|]. inversion L2 as [|? ? L3 _]; subst. destruct row as [|z row]; [cbn in L3; lia|]. reflexivity.
Qed.
Lemma set_nan : forall ch f, m_nan (f_mean f) = true -> (1 <= t_nb ch)%nat -> (1 <= r_nb ch)%nat -> shape (r_nb ch) (t_nb ch) (m_rows (f_mean f)) ->
  mimo_set ch f = (mimo_with ch f (m_cplx (f_mean f)), Ok tt).
Proof.
  intros ch f E Ht Hr (L1 & L2). unfold mimo_set. rewrite E. cbn [negb andb]. destruct (m_rows (f_mean f)) as [|row rows]; [cbn in L1; lia|]. inversion L2 as [|? ? L3 _]; subst. destruct row as [|z row]; [cbn in L3; lia|]. reflexivity.
Qed.

(* Proofs about the OFDM model *)
From Coq Require Import QArith.
From Verif Require Import Base Cplx ZcProofs OfdmModel OfdmSpec.
Close Scope Q_scope.
Open Scope R_scope.

(* ---------------------------------------------------------------- indices *)
Lemma trunc_int : forall n : nat, as_index Truncating (PyFloat (inject_Z (Z.of_nat n))) = Ok (Z.of_nat n).
Proof. intros n. unfold as_index. cbn [inject_Z Qnum Qden]. rewrite Z.quot_1_r. reflexivity. Qed.
Lemma trunc_neg_int : forall n : nat, as_index Truncating (PyFloat (- inject_Z (Z.of_nat n))) = Ok (- Z.of_nat n)%Z.
Proof. intros n. unfold as_index. cbn [inject_Z Qopp Qnum Qden]. rewrite Z.quot_1_r. reflexivity. Qed.
Lemma trunc_half : forall n : nat, as_index Truncating (PyFloat (inject_Z (Z.of_nat n) / 2)) = Ok (Z.of_nat (n / 2)).
Proof. intros n. unfold as_index. cbn [inject_Z Qdiv Qinv Qmult Qnum Qden]. f_equal. rewrite Z.mul_1_r. change (Z.pos (1 * 2)) with 2%Z. rewrite Z.quot_div_nonneg by lia. rewrite Nat2Z.inj_div. reflexivity. Qed.
Lemma trunc_half1 : forall n : nat, as_index Truncating (PyFloat (inject_Z (Z.of_nat n) / 2 + 1)) = Ok (Z.of_nat (n / 2 + 1)).
Proof.
  intros n. unfold as_index. cbn [inject_Z Qdiv Qinv Qmult Qplus Qnum Qden]. f_equal. change (Z.pos (1 * 2 * 1)) with 2%Z. change (Z.pos (1 * 2)) with 2%Z. rewrite !Z.mul_1_r, Z.quot_div_nonneg by lia. rewrite Nat2Z.inj_add, Nat2Z.inj_div.
  replace (Z.of_nat n + 1 * 2)%Z with (Z.of_nat n + 1 * 2)%Z by lia. rewrite Z.div_add by lia. reflexivity.
Qed.
Lemma trunc_neg_half : forall n : nat, as_index Truncating (PyFloat (- (inject_Z (Z.of_nat n) / 2))) = Ok (- Z.of_nat (n / 2))%Z.
Proof. intros n. unfold as_index. cbn [inject_Z Qdiv Qinv Qmult Qopp Qnum Qden]. f_equal. rewrite Z.mul_1_r. change (Z.pos (1 * 2)) with 2%Z. rewrite Z.quot_opp_l by lia. rewrite Z.quot_div_nonneg by lia. rewrite Nat2Z.inj_div. reflexivity. Qed.
Lemma trunc_half_neg : forall n : nat, as_index Truncating (PyFloat (- inject_Z (Z.of_nat n) / 2)) = Ok (- Z.of_nat (n / 2))%Z.
Proof. intros n. unfold as_index. cbn [inject_Z Qdiv Qinv Qmult Qopp Qnum Qden]. f_equal. rewrite Z.mul_1_r. change (Z.pos (1 * 2)) with 2%Z. rewrite Z.quot_opp_l by lia. rewrite Z.quot_div_nonneg by lia. rewrite Nat2Z.inj_div. reflexivity. Qed.
Lemma bound_nat : forall n m : nat, bound n (Z.of_nat m) = Nat.min m n.
Proof. intros n m. unfold bound. destruct (Z.ltb_spec (Z.of_nat m) 0); lia. Qed.
Lemma bound_neg : forall n m : nat, (1 <= m)%nat -> bound n (- Z.of_nat m) = (n - m)%nat.
Proof. intros n m H. unfold bound. destruct (Z.ltb_spec (- Z.of_nat m) 0); lia. Qed.
Lemma bound_0 : forall n : nat, bound n 0 = 0%nat.
Proof. intros n. unfold bound. cbn [Z.ltb Z.compare]. lia. Qed.
Lemma broadcast_same : forall n v, length v = n -> broadcast n v = Ok v.
Proof. intros n v H. unfold broadcast. rewrite H, Nat.eqb_refl. reflexivity. Qed.

(* ---------------------------------------------------------------- sums *)
Lemma seq_from : forall n a, seq a n = map (fun t => (a + t)%nat) (seq 0 n).
Proof. induction n as [|n IH]; intros a; [reflexivity|]. cbn [seq map]. rewrite (IH (S a)), (IH 1%nat), map_map. f_equal; [lia|]. apply map_ext. intros; lia. Qed.
Lemma wave_split : forall (F : nat -> C) (a b : list C),
  Csum (map (fun t => nth t (a ++ b) C0 * F t)%C (seq 0 (length (a ++ b)))) =
  (Csum (map (fun t => nth t a C0 * F t) (seq 0 (length a))) + Csum (map (fun t => nth t b C0 * F (length a + t)%nat) (seq 0 (length b))))%C.
Proof.
  intros F a b. rewrite app_length, seq_app, map_app, Csum_app. f_equal.
  - apply Csum_map_ext. intros t Ht. apply in_seq in Ht. rewrite app_nth1 by lia. reflexivity.
  - cbn [Nat.add]. rewrite seq_from, map_map. apply Csum_map_ext. intros t _. rewrite app_nth2 by lia. do 2 f_equal. lia.
Qed.
Lemma wave_zero : forall (F : nat -> C) n, Csum (map (fun t => nth t (repeat C0 n) C0 * F t)%C (seq 0 n)) = C0.
Proof. intros F n. rewrite (Csum_map_ext _ (fun _ => C0)); [apply Csum_map_0|]. intros t _. rewrite nth_repeat. ring. Qed.

(* the carriers as bins of a DFT of length n *)
Definition bin (n h j : nat) : nat := if (j <? h)%nat then (n - h + j)%nat else (j - h + 1)%nat.
Lemma bin_carrier : forall n h j, (2 * h < n)%nat -> (j < 2 * h)%nat -> exists k : Z, Z.of_nat (bin n h j) = (carrier h j + k * Z.of_nat n)%Z.
Proof. intros n h j H1 H2. unfold bin, carrier. destruct (Nat.ltb_spec j h); [exists 1%Z|exists 0%Z]; lia. Qed.
Lemma carrier_distinct : forall n h j j', (2 * h < n)%nat -> (j < 2 * h)%nat -> (j' < 2 * h)%nat -> j <> j' -> ((carrier h j - carrier h j') mod Z.of_nat n <> 0)%Z.
Proof.
  intros n h j j' H1 H2 H3 H4 H. apply Z.mod_divide in H; [|lia]. destruct H as [k Hk]. unfold carrier in Hk. assert (k = 0 \/ k <= -1 \/ 1 <= k)%Z as [->|[K|K]] by lia.
  - destruct (Nat.ltb_spec j h), (Nat.ltb_spec j' h); lia.
  - assert (k * Z.of_nat n <= - Z.of_nat n)%Z by nia. destruct (Nat.ltb_spec j h), (Nat.ltb_spec j' h); lia.
  - assert (Z.of_nat n <= k * Z.of_nat n)%Z by nia. destruct (Nat.ltb_spec j h), (Nat.ltb_spec j' h); lia.
Qed.
Lemma cis_bin : forall n h j (t : Z), (2 * h < n)%nat -> (j < 2 * h)%nat -> cis (2 * PI * IZR t * INR (bin n h j) / INR n) = cis (2 * PI * IZR (carrier h j) * IZR t / INR n).
Proof.
  intros n h j t H1 H2. assert (N0 : INR n <> 0) by (apply not_0_INR; lia). destruct (bin_carrier n h j H1 H2) as [k Hk]. rewrite <- (cis_period (2 * PI * IZR (carrier h j) * IZR t / INR n) (k * t)). f_equal. rewrite INR_IZR_INZ, Hk, plus_IZR, !mult_IZR, <- INR_IZR_INZ. field. exact N0.
Qed.

(* the waveform is periodic *)
Lemma waveform_period : forall n h s t k, (1 <= n)%nat -> waveform n h s (t + k * Z.of_nat n) = waveform n h s t.
Proof.
  intros n h s t k Hn. assert (N0 : INR n <> 0) by (apply not_0_INR; lia). unfold waveform. f_equal. apply Csum_map_ext. intros j _. f_equal. rewrite <- (cis_period (2 * PI * IZR (carrier h j) * IZR t / INR n) (carrier h j * k)). f_equal. rewrite plus_IZR, !mult_IZR, <- INR_IZR_INZ. field. exact N0.
Qed.

(* ---------------------------------------------------------------- transmitter *)
(* number of samples before the symbol: time[-cp:] is the whole symbol for cp = 0 *)
Definition prefix (n cp : nat) : nat := if (cp =? 0)%nat then n else Nat.min cp n.
Lemma prefix_bound : forall n cp, bound n (- Z.of_nat cp) = (n - prefix n cp)%nat.
Proof. intros n cp. unfold prefix. destruct (Nat.eqb_spec cp 0) as [->|H]; [cbn; rewrite bound_0; lia|]. rewrite bound_neg by lia. lia. Qed.
Lemma prefix_le : forall n cp, (prefix n cp <= n)%nat.
Proof. intros n cp. unfold prefix. destruct (Nat.eqb_spec cp 0); lia. Qed.
Lemma tx_symbol : forall n h cp s, (2 * h < n)%nat -> (1 <= h)%nat -> length s = (2 * h)%nat ->
  ofdm_tx_symbol Truncating (inject_Z (Z.of_nat n)) (inject_Z (Z.of_nat (2 * h))) (inject_Z (Z.of_nat cp)) s =
  Ok (map (fun t => waveform n h s (Z.of_nat t - Z.of_nat (prefix n cp))) (seq 0 (prefix n cp + n))).
Proof.
  intros n h cp s Hn Hh Ls. pose proof (prefix_le n cp) as Hc. assert (N0 : INR n <> 0) by (apply not_0_INR; lia). assert (E2 : (2 * h / 2 = h)%nat) by (rewrite Nat.mul_comm; apply Nat.div_mul; lia). unfold ofdm_tx_symbol, get_slice, set_slice, bounds.
  rewrite trunc_int, trunc_half, trunc_half1, trunc_neg_half, E2, trunc_neg_int. cbn [bind as_index fst snd]. rewrite !bound_nat, Nat2Z.id, Ls, repeat_length, Nat.min_id. cbn [bind].
  replace (Nat.min h (2 * h)) with h by lia. rewrite (firstn_all2 (skipn h s)) by (rewrite skipn_length; lia).
  replace (Nat.min (h + 1) n) with (h + 1)%nat by lia. change 1%Z with (Z.of_nat 1). rewrite bound_nat. replace (Nat.min 1 n) with 1%nat by lia. replace (h + 1 - 1)%nat with h by lia. rewrite broadcast_same by (rewrite skipn_length; lia). cbn [bind].
  set (f1 := firstn 1 (repeat C0 n) ++ skipn h s ++ skipn (1 + h) (repeat C0 n)).
  assert (F1 : f1 = C0 :: skipn h s ++ repeat C0 (n - 1 - h)).
  { unfold f1. replace (repeat C0 n) with (repeat C0 (1 + h) ++ repeat C0 (n - 1 - h)) by (rewrite <- repeat_app; f_equal; lia). replace (skipn (1 + h) (repeat C0 (1 + h) ++ repeat C0 (n - 1 - h))) with (repeat C0 (n - 1 - h)); [reflexivity|]. rewrite skipn_app, repeat_length, Nat.sub_diag. rewrite (skipn_all2 (repeat C0 (1 + h))) by (rewrite repeat_length; lia). reflexivity. }
  assert (L1 : length f1 = n) by (rewrite F1; cbn [length]; rewrite app_length, skipn_length, repeat_length; lia).
  rewrite bound_0, Nat.sub_0_r, L1. cbn [skipn]. rewrite bound_neg by lia. rewrite bound_nat, Nat.min_id. replace (n - (n - h))%nat with h by lia. rewrite broadcast_same by (rewrite firstn_length; lia). cbn [bind].
  rewrite (skipn_all2 f1) by lia. rewrite app_nil_r.
  set (f2 := firstn (n - h) f1 ++ firstn h s).
  assert (F2 : f2 = [C0] ++ skipn h s ++ repeat C0 (n - 1 - 2 * h) ++ firstn h s).
  { unfold f2. rewrite F1. replace (n - 1 - h)%nat with (n - 1 - 2 * h + h)%nat by lia. rewrite repeat_app. replace (n - h)%nat with (S (h + (n - 1 - 2 * h)))%nat by lia. cbn [firstn]. rewrite firstn_app, skipn_length, Ls. replace (h + (n - 1 - 2 * h) - (2 * h - h))%nat with (n - 1 - 2 * h)%nat by lia. rewrite (firstn_all2 (skipn h s)) by (rewrite skipn_length; lia). rewrite firstn_app, repeat_length, Nat.sub_diag, (firstn_all2 (repeat C0 (n - 1 - 2 * h))) by (rewrite repeat_length; lia). rewrite firstn_O, app_nil_r. cbn [app]. rewrite <- app_assoc. reflexivity. }
  assert (L2 : length f2 = n) by (rewrite F2, !app_length, skipn_length, repeat_length, firstn_length; cbn [length]; lia).
  assert (D : forall k, Cscale (/ INR n) (dft 1 f2 k) = waveform n h s (Z.of_nat k)).
  { intros k. unfold waveform. f_equal. unfold dft. rewrite L2. set (F := fun t => cis (1 * (2 * PI * INR k * INR t / INR n))).
    transitivity (Csum (map (fun t => nth t f2 C0 * F t)%C (seq 0 (length f2)))); [rewrite L2; reflexivity|]. rewrite F2. rewrite !wave_split. rewrite !repeat_length, wave_zero. cbn [length seq map nth Csum fold_right].
    transitivity (Csum (map (fun j => nth j s C0 * F (bin n h j))%C (seq 0 (2 * h)))).
    - rewrite skipn_length, Ls, firstn_length, Ls. replace (Nat.min h (2 * h)) with h by lia. replace (2 * h - h)%nat with h by lia. replace (2 * h)%nat with (h + h)%nat by lia. rewrite seq_app, map_app, Csum_app. cbn [Nat.add]. rewrite (seq_from h h), map_map.
      rewrite (Csum_map_ext (fun t => (nth t (skipn h s) C0 * F (S t))%C) (fun x => (nth (h + x) s C0 * F (bin n h (h + x)))%C)).
      + rewrite (Csum_map_ext (fun t => (nth t (firstn h s) C0 * F (S (h + (n - 1 - (h + h) + t))))%C) (fun j => (nth j s C0 * F (bin n h j))%C)); [ring|].
        intros t Ht. apply in_seq in Ht. rewrite firstn_nth by lia. do 2 f_equal. unfold bin. destruct (Nat.ltb_spec t h); lia.
      + intros t Ht. apply in_seq in Ht. rewrite skipn_nth. do 2 f_equal. unfold bin. destruct (Nat.ltb_spec (h + t) h); lia.
    - apply Csum_map_ext. intros j Hj. apply in_seq in Hj. f_equal. unfold F. rewrite Rmult_1_l, (INR_IZR_INZ k). apply cis_bin; lia. }
  unfold ifft. rewrite L2. destruct f2 as [|c0 f2'] eqn:Ef; [exfalso; cbn in L2; lia|]. cbn [bind]. rewrite <- Ef in *.
  rewrite map_length, seq_length. rewrite prefix_bound. rewrite bound_nat, Nat.min_id. set (c := prefix n cp) in *. replace (n - (n - c))%nat with c by lia. f_equal.
  rewrite (map_ext _ _ D). rewrite seq_app, map_app. f_equal.
  - rewrite firstn_all2 by (rewrite skipn_length, map_length, seq_length; lia). rewrite skipn_map. replace n with (n - c + c)%nat at 2 by lia. rewrite seq_app, skipn_app, seq_length, Nat.sub_diag, skipn_all2 by (rewrite seq_length; lia). cbn [app skipn Nat.add]. rewrite (seq_from c (n - c)), map_map. apply map_ext_in. intros t Ht. apply in_seq in Ht. rewrite <- (waveform_period n h s (Z.of_nat t - Z.of_nat c) 1) by lia. f_equal. lia.
  - cbn [Nat.add]. rewrite (seq_from n c), map_map. apply map_ext. intros t. f_equal. lia.
Qed.

Lemma tx_all : forall n h cp x, (2 * h < n)%nat -> (1 <= h)%nat -> Forall (fun s => length s = (2 * h)%nat) x ->
  ofdm_tx Truncating x n (2 * h) cp = Ok (flat_map (fun s => map (fun t => waveform n h s (Z.of_nat t - Z.of_nat (prefix n cp))) (seq 0 (prefix n cp + n))) x).
Proof.
  intros n h cp x Hn Hh Hx. unfold ofdm_tx. rewrite <- (app_nil_l (flat_map _ x)). generalize (@nil C) as acc. induction x as [|s x IH]; intros acc; [cbn [foldM flat_map]; rewrite app_nil_r; reflexivity|].
  cbn [foldM flat_map]. rewrite tx_symbol by (auto; apply (Forall_inv Hx)). cbn [bind]. rewrite IH by apply (Forall_inv_tail Hx). rewrite <- app_assoc. reflexivity.
Qed.
Lemma flat_blocks : forall {A B} (f : A -> nat -> B) (L : nat) (x : list A) d dd i t, (i < length x)%nat -> (t < L)%nat ->
  nth (i * L + t) (flat_map (fun s => map (f s) (seq 0 L)) x) d = f (nth i x dd) t.
Proof.
  intros A B f L x d dd. induction x as [|s x IH]; intros i t Hi Ht; [cbn in Hi; lia|]. cbn [flat_map]. destruct i as [|i].
  - rewrite app_nth1 by (rewrite map_length, seq_length; lia). cbn [Nat.mul Nat.add nth]. apply nth_map_seq. exact Ht.
  - rewrite app_nth2 by (rewrite map_length, seq_length; lia). rewrite map_length, seq_length. replace (S i * L + t - L)%nat with (i * L + t)%nat by lia. cbn [length] in Hi. cbn [nth]. apply IH; lia.
Qed.
Lemma flat_blocks_length : forall {A B} (f : A -> nat -> B) (L : nat) (x : list A), length (flat_map (fun s => map (f s) (seq 0 L)) x) = (length x * L)%nat.
Proof. intros A B f L x. induction x as [|s x IH]; [reflexivity|]. cbn [flat_map]. rewrite app_length, map_length, seq_length, IH. cbn [length]. lia. Qed.

(* ---------------------------------------------------------------- receiver *)
(* the DFT of a full period of the waveform picks the amplitude of the carrier in its bin *)
Lemma dft_waveform : forall n h s j, (2 * h < n)%nat -> (j < 2 * h)%nat -> dft (-1) (map (fun t => waveform n h s (Z.of_nat t)) (seq 0 n)) (bin n h j) = nth j s C0.
Proof.
  intros n h s j Hn Hj. assert (N0 : INR n <> 0) by (apply not_0_INR; lia). unfold dft. rewrite map_length, seq_length.
  rewrite (Csum_map_ext _ (fun t => Csum (map (fun i => ofR (/ INR n) * nth i s C0 * cis (2 * PI * IZR (carrier h i - carrier h j) * IZR (Z.of_nat t) / INR n))%C (seq 0 (2 * h))))).
  - rewrite Csum_swap. transitivity (Csum (map (fun i => ofR (/ INR n) * nth i s C0 * psum n (fun t => cis (2 * PI * IZR (carrier h i - carrier h j) * IZR t / INR n)))%C (seq 0 (2 * h)))).
    + apply Csum_map_ext. intros i _. rewrite <- psum_mul. reflexivity.
    + rewrite (Csum_single _ (2 * h) j Hj).
      * rewrite root_sum_full by (try lia; rewrite Z.sub_diag; apply Z.mod_0_l; lia). apply C_ext; unfold ofR; cbn [re im Cmul]; field; exact N0.
      * intros i Hi Hne. rewrite root_sum; [ring|lia|apply carrier_distinct; lia].
  - intros t Ht. apply in_seq in Ht. rewrite nth_map_seq by lia. unfold waveform. replace (cis (-1 * (2 * PI * INR (bin n h j) * INR t / INR n))) with (Cconj (cis (2 * PI * IZR (carrier h j) * IZR (Z.of_nat t) / INR n))).
    + rewrite <- cis_opp. transitivity (Csum (map (fun i => ofR (/ INR n) * cis (- (2 * PI * IZR (carrier h j) * IZR (Z.of_nat t) / INR n)) * (nth i s C0 * cis (2 * PI * IZR (carrier h i) * IZR (Z.of_nat t) / INR n)))%C (seq 0 (2 * h)))).
      * rewrite Csum_map_mul. unfold Cscale, ofR. apply C_ext; cbn [re im Cmul]; ring.
      * apply Csum_map_ext. intros i _. rewrite minus_IZR. replace (2 * PI * (IZR (carrier h i) - IZR (carrier h j)) * IZR (Z.of_nat t) / INR n) with (2 * PI * IZR (carrier h i) * IZR (Z.of_nat t) / INR n + - (2 * PI * IZR (carrier h j) * IZR (Z.of_nat t) / INR n)) by (field; exact N0). rewrite cis_add. ring.
    + rewrite <- (cis_bin n h j (Z.of_nat t)) by lia. replace (-1 * (2 * PI * INR (bin n h j) * INR t / INR n)) with (- (2 * PI * IZR (Z.of_nat t) * INR (bin n h j) / INR n)) by (rewrite <- INR_IZR_INZ; field; exact N0). rewrite cis_opp. reflexivity.
Qed.
Lemma rx_symbol : forall n h cp y i s, (2 * h < n)%nat -> (1 <= h)%nat -> length s = (2 * h)%nat -> ((i + 1) * (n + cp) <= length y)%nat ->
  (forall t, (t < n)%nat -> nth (i * (n + cp) + cp + t) y C0 = waveform n h s (Z.of_nat t)) -> ofdm_rx_symbol Truncating y n (2 * h) cp i = Ok s.
Proof.
  intros n h cp y i s Hn Hh Ls Ly Hy. assert (E2 : (2 * h / 2 = h)%nat) by (rewrite Nat.mul_comm; apply Nat.div_mul; lia). unfold ofdm_rx_symbol, get_slice, bounds.
  rewrite trunc_half1, trunc_half_neg, E2. cbn [bind as_index fst snd]. rewrite !bound_nat. rewrite !Nat.min_l by lia. replace ((i + 1) * (n + cp) - (i * n + (i + 1) * cp))%nat with n by lia.
  assert (B : firstn n (skipn (i * n + (i + 1) * cp) y) = map (fun t => waveform n h s (Z.of_nat t)) (seq 0 n)).
  { apply (nth_ext _ _ C0 C0); [rewrite firstn_length, skipn_length, map_length, seq_length; lia|]. intros t Ht. rewrite firstn_length in Ht. rewrite firstn_nth by lia. rewrite skipn_nth, nth_map_seq by lia. rewrite <- Hy by lia. f_equal. lia. }
  rewrite B. unfold fft. rewrite map_length, seq_length. destruct (map _ (seq 0 n)) as [|c b] eqn:Eb; [apply (f_equal (@length C)) in Eb; rewrite map_length, seq_length in Eb; cbn in Eb; lia|]. rewrite <- Eb. clear Eb. cbn [bind].
  rewrite !map_length, !seq_length. change 1%Z with (Z.of_nat 1). rewrite bound_neg by lia. rewrite !bound_nat. rewrite !Nat.min_id. replace (Nat.min 1 n) with 1%nat by lia. replace (Nat.min (h + 1) n) with (h + 1)%nat by lia. replace (n - (n - h))%nat with h by lia. replace (h + 1 - 1)%nat with h by lia.
  match goal with |- broadcast _ ?l = _ => assert (L : l = s) end.
  { apply (nth_ext _ _ C0 C0); [rewrite app_length, !firstn_length, !skipn_length, !map_length, !seq_length; lia|]. intros j Hj. rewrite app_length, !firstn_length, !skipn_length, !map_length, !seq_length in Hj. rewrite <- (dft_waveform n h s j) by lia. unfold bin. destruct (Nat.ltb_spec j h).
    - rewrite app_nth1 by (rewrite firstn_length, skipn_length, map_length, seq_length; lia). rewrite firstn_nth by lia. rewrite skipn_nth, nth_map_seq by lia. reflexivity.
    - rewrite app_nth2 by (rewrite firstn_length, skipn_length, map_length, seq_length; lia). rewrite firstn_length, skipn_length, map_length, seq_length. replace (Nat.min h (n - (n - h))) with h by lia. rewrite firstn_nth by lia. rewrite skipn_nth, nth_map_seq by lia. f_equal. lia. }
  rewrite L. apply broadcast_same. exact Ls.
Qed.
Lemma rx_all : forall n h cp y x, (2 * h < n)%nat -> (1 <= h)%nat -> Forall (fun s => length s = (2 * h)%nat) x -> (length y / (n + cp) = length x)%nat ->
  (forall i t, (i < length x)%nat -> (t < n)%nat -> nth (i * (n + cp) + cp + t) y C0 = waveform n h (nth i x []) (Z.of_nat t)) -> ofdm_rx Truncating y n (2 * h) cp = Ok x.
Proof.
  intros n h cp y x Hn Hh Hx Ly Hy. unfold ofdm_rx. destruct (Nat.eqb_spec (n + cp) 0) as [E|_]; [lia|]. rewrite Ly. rewrite (mapM_Ok _ (fun i => nth i x [])).
  - f_equal. apply (nth_ext _ _ [] []); [rewrite map_length, seq_length; reflexivity|]. intros i Hi. rewrite map_length, seq_length in Hi. rewrite nth_map_seq by exact Hi. reflexivity.
  - intros i Hi. apply in_seq in Hi. apply rx_symbol; auto; try lia.
    + rewrite Forall_forall in Hx. apply Hx, nth_In. lia.
    + assert (length y / (n + cp) * (n + cp) <= length y)%nat by (rewrite Nat.mul_comm; apply Nat.mul_div_le; lia). rewrite Ly in H. nia.
    + intros t Ht. apply Hy; lia.
Qed.

(* ---------------------------------------------------------------- multipath channel *)
Lemma waveform_multipath : forall n h g s (t : Z), (1 <= n)%nat ->
  Csum (map (fun l => nth l g C0 * waveform n h s (t - Z.of_nat l))%C (seq 0 (length g))) = waveform n h (attenuated n h g s) t.
Proof.
  intros n h g s t Hn. assert (N0 : INR n <> 0) by (apply not_0_INR; lia).
  transitivity (Csum (map (fun l => Csum (map (fun j => ofR (/ INR n) * (nth j s C0 * (nth l g C0 * cis (- (2 * PI * IZR (carrier h j) * INR l / INR n))) * cis (2 * PI * IZR (carrier h j) * IZR t / INR n)))%C (seq 0 (2 * h)))) (seq 0 (length g)))).
  - apply Csum_map_ext. intros l _. rewrite Csum_map_mul. unfold waveform. replace (Csum (map (fun j => (nth j s C0 * (nth l g C0 * cis (- (2 * PI * IZR (carrier h j) * INR l / INR n))) * cis (2 * PI * IZR (carrier h j) * IZR t / INR n))%C) (seq 0 (2 * h)))) with (nth l g C0 * Csum (map (fun j => (nth j s C0 * cis (2 * PI * IZR (carrier h j) * IZR (t - Z.of_nat l) / INR n))%C) (seq 0 (2 * h))))%C.
    + unfold Cscale, ofR. apply C_ext; cbn [re im Cmul]; ring.
    + rewrite <- Csum_map_mul. apply Csum_map_ext. intros j _. rewrite minus_IZR, <- INR_IZR_INZ. replace (2 * PI * IZR (carrier h j) * (IZR t - INR l) / INR n) with (- (2 * PI * IZR (carrier h j) * INR l / INR n) + 2 * PI * IZR (carrier h j) * IZR t / INR n) by (field; exact N0). rewrite cis_add. ring.
  - rewrite Csum_swap. unfold waveform. rewrite <- (Csum_map_ext (fun j => (ofR (/ INR n) * (nth j (attenuated n h g s) C0 * cis (2 * PI * IZR (carrier h j) * IZR t / INR n)))%C)).
    + rewrite Csum_map_mul. unfold Cscale, ofR. apply C_ext; cbn [re im Cmul]; ring.
    + intros j Hj. apply in_seq in Hj. unfold attenuated. rewrite nth_map_seq by lia. unfold response. rewrite Csum_map_mul. f_equal. symmetry. rewrite (Csum_map_ext _ (fun l => (nth j s C0 * cis (2 * PI * IZR (carrier h j) * IZR t / INR n)) * (nth l g C0 * cis (- (2 * PI * IZR (carrier h j) * INR l / INR n))))%C) by (intros; ring). rewrite Csum_map_mul. ring.
Qed.
Lemma multipath_rx : forall n h cp g x s, (2 * h < n)%nat -> (1 <= h)%nat -> (1 <= cp <= n)%nat -> Forall (fun s => length s = (2 * h)%nat) x -> (length g <= cp + 1)%nat ->
  ofdm_tx Truncating x n (2 * h) cp = Ok s -> ofdm_rx Truncating (multipath g s) n (2 * h) cp = Ok (map (attenuated n h g) x).
Proof.
  intros n h cp g x s Hn Hh Hcp Hx Hg Hs. rewrite tx_all in Hs by assumption. injection Hs as <-. replace (prefix n cp) with cp by (unfold prefix; destruct (Nat.eqb_spec cp 0); lia). set (f := fun (s : list C) t => waveform n h s (Z.of_nat t - Z.of_nat cp)). change (flat_map _ x) with (flat_map (fun s => map (f s) (seq 0 (cp + n))) x). pose proof (flat_blocks_length f (cp + n) x) as L.
  apply rx_all; auto.
  - apply Forall_forall. intros a Ha. apply in_map_iff in Ha as (b & <- & _). unfold attenuated. rewrite map_length, seq_length. reflexivity.
  - unfold multipath. rewrite !map_length, seq_length, L. rewrite (Nat.add_comm n cp). apply Nat.div_mul. lia.
  - intros i t Hi Ht. rewrite map_length in Hi. unfold multipath. rewrite nth_map_seq by (rewrite L; nia). rewrite (nth_map_lt _ _ _ [] []) by exact Hi. rewrite <- waveform_multipath by lia. apply Csum_map_ext. intros l Hl. apply in_seq in Hl. replace (l <=? i * (n + cp) + cp + t)%nat with true by (symmetry; apply Nat.leb_le; lia). f_equal.
    replace (i * (n + cp) + cp + t - l)%nat with (i * (cp + n) + (cp + t - l))%nat by lia. rewrite (flat_blocks f _ x C0 []) by lia. unfold f. f_equal. lia.
Qed.

(* ---------------------------------------------------------------- receiver in general *)
Lemma dft_bin : forall (F : nat -> C) n h j, (2 * h < n)%nat -> (j < 2 * h)%nat ->
  dft (-1) (map F (seq 0 n)) (bin n h j) = Csum (map (fun t => F t * cis (- (2 * PI * IZR (carrier h j) * INR t / INR n)))%C (seq 0 n)).
Proof.
  intros F n h j Hn Hj. assert (N0 : INR n <> 0) by (apply not_0_INR; lia). unfold dft. rewrite map_length, seq_length. apply Csum_map_ext. intros t Ht. apply in_seq in Ht. rewrite nth_map_seq by lia. f_equal.
  replace (-1 * (2 * PI * INR (bin n h j) * INR t / INR n)) with (- (2 * PI * IZR (Z.of_nat t) * INR (bin n h j) / INR n)) by (rewrite <- INR_IZR_INZ; field; exact N0). rewrite cis_opp, cis_bin by lia. rewrite <- cis_opp, <- INR_IZR_INZ. reflexivity.
Qed.
Lemma rx_symbol_gen : forall n h cp y i, (2 * h < n)%nat -> (1 <= h)%nat -> ((i + 1) * (n + cp) <= length y)%nat ->
  ofdm_rx_symbol Truncating y n (2 * h) cp i = Ok (map (fun j => Csum (map (fun t => nth (i * (n + cp) + cp + t) y C0 * cis (- (2 * PI * IZR (carrier h j) * INR t / INR n)))%C (seq 0 n))) (seq 0 (2 * h))).
Proof.
  intros n h cp y i Hn Hh Ly. assert (E2 : (2 * h / 2 = h)%nat) by (rewrite Nat.mul_comm; apply Nat.div_mul; lia). unfold ofdm_rx_symbol, get_slice, bounds.
  rewrite trunc_half1, trunc_half_neg, E2. cbn [bind as_index fst snd]. rewrite !bound_nat. rewrite !Nat.min_l by lia. replace ((i + 1) * (n + cp) - (i * n + (i + 1) * cp))%nat with n by lia.
  set (F := fun t => nth (i * (n + cp) + cp + t) y C0).
  assert (B : firstn n (skipn (i * n + (i + 1) * cp) y) = map F (seq 0 n)).
  { apply (nth_ext _ _ C0 C0); [rewrite firstn_length, skipn_length, map_length, seq_length; lia|]. intros t Ht. rewrite firstn_length in Ht. rewrite firstn_nth by lia. rewrite skipn_nth, nth_map_seq by lia. unfold F. f_equal. lia. }
  rewrite B. unfold fft. rewrite map_length, seq_length. destruct (map _ (seq 0 n)) as [|c b] eqn:Eb; [apply (f_equal (@length C)) in Eb; rewrite map_length, seq_length in Eb; cbn in Eb; lia|]. rewrite <- Eb. clear Eb. cbn [bind].
  rewrite !map_length, !seq_length. change 1%Z with (Z.of_nat 1). rewrite bound_neg by lia. rewrite !bound_nat. rewrite !Nat.min_id. replace (Nat.min 1 n) with 1%nat by lia. replace (Nat.min (h + 1) n) with (h + 1)%nat by lia. replace (n - (n - h))%nat with h by lia. replace (h + 1 - 1)%nat with h by lia.
  match goal with |- broadcast _ ?l = Ok ?r => assert (L : l = r) end.
  { apply (nth_ext _ _ C0 C0); [rewrite app_length, !firstn_length, !skipn_length, !map_length, !seq_length; lia|]. intros j Hj. rewrite app_length, !firstn_length, !skipn_length, !map_length, !seq_length in Hj. rewrite (nth_map_seq _ (2 * h)) by lia. transitivity (dft (-1) (map F (seq 0 n)) (bin n h j)); [|apply (dft_bin F n h j); lia]. unfold bin. destruct (Nat.ltb_spec j h).
    - rewrite app_nth1 by (rewrite firstn_length, skipn_length, map_length, seq_length; lia). rewrite firstn_nth by lia. rewrite skipn_nth, nth_map_seq by lia. reflexivity.
    - rewrite app_nth2 by (rewrite firstn_length, skipn_length, map_length, seq_length; lia). rewrite firstn_length, skipn_length, map_length, seq_length. replace (Nat.min h (n - (n - h))) with h by lia. rewrite firstn_nth by lia. rewrite skipn_nth, nth_map_seq by lia. f_equal. lia. }
  rewrite L. apply broadcast_same. rewrite map_length, seq_length. reflexivity.
Qed.
Lemma rx_gen : forall n h cp y, (2 * h < n)%nat -> (1 <= h)%nat ->
  ofdm_rx Truncating y n (2 * h) cp = Ok (map (fun i => map (fun j => Csum (map (fun t => nth (i * (n + cp) + cp + t) y C0 * cis (- (2 * PI * IZR (carrier h j) * INR t / INR n)))%C (seq 0 n))) (seq 0 (2 * h))) (seq 0 (length y / (n + cp)))).
Proof.
  intros n h cp y Hn Hh. unfold ofdm_rx. destruct (Nat.eqb_spec (n + cp) 0) as [E|_]; [lia|]. apply mapM_Ok. intros i Hi. apply in_seq in Hi. apply rx_symbol_gen; auto.
  assert (length y / (n + cp) * (n + cp) <= length y)%nat by (rewrite Nat.mul_comm; apply Nat.mul_div_le; lia). nia.
Qed.

(* ---------------------------------------------------------------- energy *)
Lemma Cmul_conj : forall a, (a * Cconj a)%C = ofR (Cnorm2 a).
Proof. intros a. unfold ofR, Cnorm2. apply C_ext; cbn [re im Cmul Cconj]; ring. Qed.
Lemma Csum_ofR : forall {A} (f : A -> R) l, Csum (map (fun x => ofR (f x)) l) = ofR (Rsum (map f l)).
Proof. intros A f l. induction l as [|x l IH]; [reflexivity|]. cbn [map Csum Rsum fold_right]. unfold Csum, Rsum in IH. rewrite IH. unfold ofR. apply C_ext; cbn [re im Cadd]; ring. Qed.
Lemma ofR_inj : forall a b, ofR a = ofR b -> a = b.
Proof. intros a b H. apply (f_equal re) in H. exact H. Qed.
Lemma Cconj_mul : forall a b, Cconj (a * b)%C = (Cconj a * Cconj b)%C.
Proof. intros. apply C_ext; cbn [re im Cmul Cconj]; ring. Qed.
Lemma waveform_energy : forall n h s, (2 * h < n)%nat -> Rsum (map (fun t => Cnorm2 (waveform n h s (Z.of_nat t))) (seq 0 n)) = / INR n * Rsum (map (fun j => Cnorm2 (nth j s C0)) (seq 0 (2 * h))).
Proof.
  intros n h s Hn. assert (N0 : INR n <> 0) by (apply not_0_INR; lia). apply ofR_inj. rewrite <- Csum_ofR.
  set (W := fun j (t : Z) => cis (2 * PI * IZR (carrier h j) * IZR t / INR n)).
  transitivity (Csum (map (fun t => Csum (map (fun i => Csum (map (fun j => (ofR (/ INR n * / INR n) * (nth i s C0 * Cconj (nth j s C0))) * cis (2 * PI * IZR (carrier h i - carrier h j) * IZR (Z.of_nat t) / INR n))%C (seq 0 (2 * h)))) (seq 0 (2 * h)))) (seq 0 n))).
  - apply Csum_map_ext. intros t _. rewrite <- Cmul_conj. unfold waveform at 1 2. fold (W 0%nat).
    transitivity ((ofR (/ INR n) * Csum (map (fun j => nth j s C0 * W j (Z.of_nat t)) (seq 0 (2 * h)))) * (ofR (/ INR n) * Csum (map (fun j => Cconj (nth j s C0 * W j (Z.of_nat t))) (seq 0 (2 * h)))))%C.
    + f_equal; [unfold W, Cscale, ofR; apply C_ext; cbn [re im Cmul]; ring|]. rewrite <- (map_map (fun j => (nth j s C0 * W j (Z.of_nat t))%C) Cconj). rewrite <- Csum_conj. unfold W, Cscale, ofR; apply C_ext; cbn [re im Cmul Cconj]; ring.
    + set (B := Csum (map (fun j => Cconj _) _)). transitivity (Csum (map (fun i => (ofR (/ INR n * / INR n) * B) * (nth i s C0 * W i (Z.of_nat t)))%C (seq 0 (2 * h)))).
      * rewrite Csum_map_mul. unfold ofR. apply C_ext; cbn [re im Cmul]; ring.
      * apply Csum_map_ext. intros i _. unfold B. transitivity ((ofR (/ INR n * / INR n) * (nth i s C0 * W i (Z.of_nat t))) * Csum (map (fun j => Cconj (nth j s C0 * W j (Z.of_nat t))) (seq 0 (2 * h))))%C; [ring|]. rewrite <- Csum_map_mul. apply Csum_map_ext. intros j _. rewrite Cconj_mul. unfold W. rewrite <- cis_opp, minus_IZR. replace (2 * PI * (IZR (carrier h i) - IZR (carrier h j)) * IZR (Z.of_nat t) / INR n) with (2 * PI * IZR (carrier h i) * IZR (Z.of_nat t) / INR n + - (2 * PI * IZR (carrier h j) * IZR (Z.of_nat t) / INR n)) by (field; exact N0). rewrite cis_add. ring.
  - rewrite Csum_swap. transitivity (Csum (map (fun i => ofR (/ INR n * Cnorm2 (nth i s C0))) (seq 0 (2 * h)))).
    + apply Csum_map_ext. intros i Hi. apply in_seq in Hi. rewrite Csum_swap. rewrite (Csum_single _ (2 * h) i) by first [lia | intros j Hj Hne; rewrite (Csum_map_mul (ofR (/ INR n * / INR n) * (nth i s C0 * Cconj (nth j s C0)))%C (fun t : nat => cis (2 * PI * IZR (carrier h i - carrier h j) * IZR (Z.of_nat t) / INR n))); change (Csum _) with (psum n (fun t => cis (2 * PI * IZR (carrier h i - carrier h j) * IZR t / INR n))); rewrite root_sum; [ring|lia|apply carrier_distinct; lia]].
      rewrite (Csum_map_mul (ofR (/ INR n * / INR n) * (nth i s C0 * Cconj (nth i s C0)))%C (fun t : nat => cis (2 * PI * IZR (carrier h i - carrier h i) * IZR (Z.of_nat t) / INR n))). change (Csum _) with (psum n (fun t => cis (2 * PI * IZR (carrier h i - carrier h i) * IZR t / INR n))). rewrite root_sum_full by (try lia; rewrite Z.sub_diag; apply Z.mod_0_l; lia). rewrite Cmul_conj. unfold ofR. apply C_ext; cbn [re im Cmul]; field; exact N0.
    + rewrite Csum_ofR. rewrite Rsum_map_mul. reflexivity.
Qed.

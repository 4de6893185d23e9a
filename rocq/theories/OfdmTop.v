(* Proofs of the OFDM properties C63, C74. *)
From Verif Require Import Base Cplx OfdmModel OfdmSpec OfdmProofs.
Open Scope Z_scope.

Lemma C63_ofdm_proof :
(* NumPy >= 1.12: ofdm_tx and ofdm_rx cannot process a single OFDM symbol, TypeError as soon as there is one *)
  forall (x : list (list C)) (y : list C) (nfft nsc cp : nat),
    ofdm_tx Strict x nfft nsc cp = match x with [] => Ok [] | _ => Err TypeError end /\
    ((1 <= nfft)%nat -> ofdm_rx Strict y nfft nsc cp = if (length y <? nfft + cp)%nat then Ok [] else Err TypeError) /\
    ((1 <= cp)%nat -> ofdm_rx Strict y 0 nsc cp = if (length y <? cp)%nat then Ok [] else Err ValueError) /\
    ofdm_rx Strict y 0 nsc 0 = Err ZeroDivisionError.
Proof.
  intros x y nfft nsc cp. split; [destruct x; reflexivity|]. split; [|split; [|reflexivity]].
  - intros H. unfold ofdm_rx. replace (nfft + cp =? 0)%nat with false by (symmetry; apply Nat.eqb_neq; lia). destruct (Nat.ltb_spec (length y) (nfft + cp)) as [Hl|Hl].
    + rewrite Nat.div_small by exact Hl. reflexivity.
    + assert (1 <= length y / (nfft + cp))%nat by (apply Nat.div_le_lower_bound; lia). destruct (length y / (nfft + cp))%nat; [lia|]. cbn [seq mapM].
      unfold ofdm_rx_symbol, get_slice, bounds. cbn [bind as_index fst snd]. rewrite !bound_nat, !Nat.min_l by lia. replace ((0 + 1) * (nfft + cp) - (0 * nfft + (0 + 1) * cp))%nat with nfft by lia. unfold fft. destruct (firstn nfft _) eqn:E; [|reflexivity]. apply (f_equal (@length C)) in E. rewrite firstn_length, skipn_length in E. cbn in E. lia.
  - intros H. unfold ofdm_rx. cbn [Nat.add]. destruct (Nat.eqb_spec cp 0) as [|_]; [lia|]. destruct (Nat.ltb_spec (length y) cp) as [Hl|Hl].
    + rewrite Nat.div_small by exact Hl. reflexivity.
    + assert (1 <= length y / cp)%nat by (apply Nat.div_le_lower_bound; lia). destruct (length y / cp)%nat; [lia|]. cbn [seq mapM].
      unfold ofdm_rx_symbol, get_slice, bounds. cbn [bind as_index fst snd]. rewrite !bound_nat. replace (Nat.min ((0 + 1) * (0 + cp)) (length y) - Nat.min (0 * 0 + (0 + 1) * cp) (length y))%nat with 0%nat by lia. reflexivity.
Qed.

Lemma C74_waveform_proof :
(* NumPy < 1.12.  The transmitted signal: every column gives nfft + cp samples of the sum of its carriers, from time -cp *)
  forall (x : list (list C)) (nfft h cp : nat), (1 <= h)%nat -> (2 * h < nfft)%nat -> (1 <= cp <= nfft)%nat -> Forall (fun c => length c = (2 * h)%nat) x ->
    exists s : list C, ofdm_tx Truncating x nfft (2 * h) cp = Ok s /\ length s = (length x * (nfft + cp))%nat /\
      forall i t : nat, (i < length x)%nat -> (t < nfft + cp)%nat -> nth (i * (nfft + cp) + t) s C0 = waveform nfft h (nth i x []) (Z.of_nat t - Z.of_nat cp).
Proof.
  intros x n h cp Hh Hn Hcp Hx. eexists. split; [apply tx_all; assumption|]. replace (prefix n cp) with cp by (unfold prefix; destruct (Nat.eqb_spec cp 0); lia). rewrite (Nat.add_comm cp n).
  rewrite (flat_blocks_length (fun (s : list C) t => waveform n h s (Z.of_nat t - Z.of_nat cp))). split; [reflexivity|]. intros i t Hi Ht. apply (flat_blocks (fun (s : list C) t => waveform n h s (Z.of_nat t - Z.of_nat cp)) (n + cp) x C0 []); assumption.
Qed.

Lemma C74_receiver_proof :
(* the receiver drops the prefix of every complete block and correlates the rest with every carrier; hence it is linear in
     the received signal *)
  forall (y : list C) (nfft h cp : nat), (1 <= h)%nat -> (2 * h < nfft)%nat ->
    exists x : list (list C), ofdm_rx Truncating y nfft (2 * h) cp = Ok x /\ length x = (length y / (nfft + cp))%nat /\
      forall i j : nat, (i < length x)%nat -> (j < 2 * h)%nat -> length (nth i x []) = (2 * h)%nat /\
        nth j (nth i x []) C0 = Csum (map (fun t => nth (i * (nfft + cp) + cp + t) y C0 * cis (- (2 * PI * IZR (carrier h j) * INR t / INR nfft)))%C (seq 0 nfft)).
Proof.
  intros y n h cp Hh Hn. eexists. split; [apply rx_gen; assumption|]. rewrite map_length, seq_length. split; [reflexivity|]. intros i j Hi Hj. rewrite nth_map_seq by exact Hi. rewrite map_length, seq_length. split; [reflexivity|]. rewrite nth_map_seq by exact Hj. reflexivity.
Qed.

Lemma C74_multipath_proof :
(* a channel with up to cp + 1 taps multiplies every row by the frequency response at its carrier *)
  forall (x : list (list C)) (g s : list C) (nfft h cp : nat), (1 <= h)%nat -> (2 * h < nfft)%nat -> (1 <= cp <= nfft)%nat -> Forall (fun c => length c = (2 * h)%nat) x -> (length g <= cp + 1)%nat ->
    ofdm_tx Truncating x nfft (2 * h) cp = Ok s -> ofdm_rx Truncating (multipath g s) nfft (2 * h) cp = Ok (map (attenuated nfft h g) x).
Proof.
  intros x g s n h cp Hh Hn Hcp Hx Hg Hs. apply (multipath_rx n h cp g x s); assumption.
Qed.

Lemma C74_roundtrip_proof :
(* the receiver inverts the transmitter *)
  forall (x : list (list C)) (nfft h cp : nat), (1 <= h)%nat -> (2 * h < nfft)%nat -> (1 <= cp <= nfft)%nat -> Forall (fun c => length c = (2 * h)%nat) x ->
    exists s : list C, ofdm_tx Truncating x nfft (2 * h) cp = Ok s /\ ofdm_rx Truncating s nfft (2 * h) cp = Ok x.
Proof.
  intros x n h cp Hh Hn Hcp Hx. destruct (C74_waveform_proof x n h cp Hh Hn Hcp Hx) as (s & E & L & W). exists s. split; [exact E|]. apply rx_all; auto.
  - rewrite L. apply Nat.div_mul. lia.
  - intros i t Hi Ht. rewrite <- Nat.add_assoc. rewrite W by lia. f_equal. lia.
Qed.

Lemma C74_energy_proof :
(* the energy of every symbol (without prefix) is the energy of its column divided by nfft *)
  forall (x : list (list C)) (s : list C) (nfft h cp i : nat), (1 <= h)%nat -> (2 * h < nfft)%nat -> (1 <= cp <= nfft)%nat -> Forall (fun c => length c = (2 * h)%nat) x -> (i < length x)%nat ->
    ofdm_tx Truncating x nfft (2 * h) cp = Ok s ->
    Rsum (map (fun t => Cnorm2 (nth (i * (nfft + cp) + cp + t) s C0)) (seq 0 nfft)) = (/ INR nfft * Rsum (map Cnorm2 (nth i x [])))%R.
Proof.
  intros x s n h cp i Hh Hn Hcp Hx Hi Hs. destruct (C74_waveform_proof x n h cp Hh Hn Hcp Hx) as (s' & E & L & W). rewrite E in Hs. injection Hs as ->.
  rewrite (Rsum_map_ext _ (fun t => Cnorm2 (waveform n h (nth i x []) (Z.of_nat t)))).
  - rewrite waveform_energy by exact Hn. f_equal. assert (Lc : length (nth i x []) = (2 * h)%nat) by (rewrite Forall_forall in Hx; apply Hx, nth_In, Hi). rewrite <- Lc. rewrite <- (map_map (fun j => nth j (nth i x []) C0) Cnorm2). do 2 f_equal. apply (nth_ext _ _ C0 C0); [rewrite map_length, seq_length; reflexivity|]. intros j Hj. rewrite map_length, seq_length in Hj. rewrite nth_map_seq by exact Hj. reflexivity.
  - intros t Ht. apply in_seq in Ht. rewrite <- Nat.add_assoc. rewrite W by lia. do 2 f_equal. lia.
Qed.

Lemma C74_zero_prefix_refuted_proof :
(* cp_length = 0 is not a signal without prefix: time[-0:] is the whole symbol, everything is sent, and received, twice *)
  (forall (x : list (list C)) (nfft h : nat), (1 <= h)%nat -> (2 * h < nfft)%nat -> Forall (fun c => length c = (2 * h)%nat) x ->
    exists s : list C, ofdm_tx Truncating x nfft (2 * h) 0 = Ok s /\ length s = (2 * nfft * length x)%nat /\ ofdm_rx Truncating s nfft (2 * h) 0 = Ok (flat_map (fun c => [c; c]) x)) /\
  ~ (forall (x : list (list C)) (s : list C) (nfft h : nat), (1 <= h)%nat -> (2 * h < nfft)%nat -> Forall (fun c => length c = (2 * h)%nat) x ->
       ofdm_tx Truncating x nfft (2 * h) 0 = Ok s -> ofdm_rx Truncating s nfft (2 * h) 0 = Ok x).
Proof.
  assert (G : forall (x : list (list C)) (nfft h : nat), (1 <= h)%nat -> (2 * h < nfft)%nat -> Forall (fun c => length c = (2 * h)%nat) x ->
    exists s : list C, ofdm_tx Truncating x nfft (2 * h) 0 = Ok s /\ length s = (2 * nfft * length x)%nat /\ ofdm_rx Truncating s nfft (2 * h) 0 = Ok (flat_map (fun c => [c; c]) x)).
  { intros x n h Hh Hn Hx. eexists. split; [apply tx_all; assumption|]. replace (prefix n 0) with n by reflexivity. set (f := fun (s : list C) t => waveform n h s (Z.of_nat t - Z.of_nat n)).
    pose proof (flat_blocks_length f (n + n) x) as L. split; [transitivity (length x * (n + n))%nat; [exact L|lia]|].
    assert (L2 : length (flat_map (fun c : list C => [c; c]) x) = (2 * length x)%nat) by (clear; induction x as [|c x IH]; [reflexivity|]; cbn [flat_map]; rewrite app_length, IH; cbn [length]; lia).
    assert (N2 : forall i, (i < 2 * length x)%nat -> nth i (flat_map (fun c : list C => [c; c]) x) [] = nth (i / 2) x []).
    { clear. induction x as [|c x IH]; intros i Hi; [cbn in Hi; lia|]. cbn [flat_map app]. destruct i as [|[|i]]; [reflexivity|reflexivity|]. replace (S (S i) / 2)%nat with (S (i / 2)) by (replace (S (S i)) with (i + 1 * 2)%nat by lia; rewrite Nat.div_add by lia; lia). cbn [nth]. apply IH. cbn [length] in Hi. lia. }
    apply rx_all; auto.
    - apply Forall_forall. intros c Hc. apply in_flat_map in Hc as (d & Hd & Hc). rewrite Forall_forall in Hx. destruct Hc as [<-|[<-|[]]]; apply Hx; exact Hd.
    - rewrite L2. change (flat_map _ x) with (flat_map (fun s => map (f s) (seq 0 (n + n))) x). rewrite L, Nat.add_0_r. replace (length x * (n + n))%nat with (2 * length x * n)%nat by lia. apply Nat.div_mul. lia.
    - intros i t Hi Ht. rewrite L2 in Hi. rewrite N2 by exact Hi. change (flat_map _ x) with (flat_map (fun s => map (f s) (seq 0 (n + n))) x). rewrite !Nat.add_0_r.
      pose proof (Nat.div_mod i 2 ltac:(lia)) as D. pose proof (Nat.mod_upper_bound i 2 ltac:(lia)) as M. assert (i / 2 < length x)%nat by lia.
      replace (i * n + t)%nat with (i / 2 * (n + n) + (i mod 2 * n + t))%nat by (rewrite D at 3; lia). rewrite (flat_blocks f _ x C0 []) by nia. unfold f. assert (i mod 2 = 0 \/ i mod 2 = 1)%nat as [->| ->] by lia.
      + rewrite <- (waveform_period n h _ (Z.of_nat (0 * n + t) - Z.of_nat n) 1) by lia. f_equal. lia.
      + f_equal. lia. }
  split; [exact G|]. intros F. destruct (G [[C0; C0]] 3%nat 1%nat ltac:(lia) ltac:(lia) ltac:(repeat constructor)) as (s & E & _ & E2). pose proof (F [[C0; C0]] s 3%nat 1%nat ltac:(lia) ltac:(lia) ltac:(repeat constructor) E) as E3. rewrite E2 in E3. discriminate E3.
Qed.

Lemma C74_full_band_refuted_proof :
(* nsc = nfft is accepted but loses a row: the two bands share a bin *)
  (forall a b : C, exists s : list C, ofdm_tx Truncating [[a; b]] 2 2 1 = Ok s /\ ofdm_rx Truncating s 2 2 1 = Ok [[a; a]]) /\
  ~ (forall (x : list (list C)) (s : list C) (nfft h cp : nat), (1 <= h)%nat -> (2 * h <= nfft)%nat -> (1 <= cp <= nfft)%nat -> Forall (fun c => length c = (2 * h)%nat) x ->
       ofdm_tx Truncating x nfft (2 * h) cp = Ok s -> ofdm_rx Truncating s nfft (2 * h) cp = Ok x).
Proof.
  assert (G : forall a b : C, exists s : list C, ofdm_tx Truncating [[a; b]] 2 2 1 = Ok s /\ ofdm_rx Truncating s 2 2 1 = Ok [[a; a]]).
  { intros a b. set (T := fun k => Cscale (/ INR 2) (dft 1 [C0; a] k)). exists [T 1%nat; T 0%nat; T 1%nat]. split; [reflexivity|].
    assert (Q : forall u v w, ofdm_rx Truncating [u; v; w] 2 2 1 = Ok [[dft (-1) [v; w] 1; dft (-1) [v; w] 1]]) by reflexivity. rewrite Q. unfold T, dft. cbn [length seq map nth Csum fold_right].
    assert (K : forall s, cis (s * (2 * PI * INR 0 * INR 0 / INR 2))%R = C1 /\ cis (s * (2 * PI * INR 0 * INR 1 / INR 2))%R = C1 /\ cis (s * (2 * PI * INR 1 * INR 0 / INR 2))%R = C1).
    { intros s. rewrite <- !cis_0. repeat split; f_equal; cbn [INR]; field. }
    assert (P : forall s, (s = 1 \/ s = -1)%R -> cis (s * (2 * PI * INR 1 * INR 1 / INR 2))%R = Copp C1).
    { intros s Hs. unfold cis. assert (E : (s * (2 * PI * INR 1 * INR 1 / INR 2) = s * PI)%R) by (cbn [INR]; field). rewrite E. destruct Hs as [-> | ->]; [rewrite Rmult_1_l, cos_PI, sin_PI|replace (-1 * PI)%R with (- PI)%R by ring; rewrite cos_neg, sin_neg, cos_PI, sin_PI]; apply C_ext; cbn; lra. }
    destruct (K 1%R) as (K1 & K2 & K3). destruct (K (-1)%R) as (K4 & K5 & K6). rewrite K1, K2, K3, K6. rewrite (P 1%R) by (left; reflexivity). rewrite (P (-1)%R) by (right; reflexivity). do 2 f_equal; apply f_equal2; [|apply f_equal2; [|reflexivity]]; apply C_ext; cbn [re im Cmul Cadd Cscale Copp C0 C1 INR]; field. }
  split; [exact G|]. intros F. destruct (G C0 C1) as (s & E & E2). pose proof (F [[C0; C1]] s 2%nat 1%nat 1%nat ltac:(lia) ltac:(lia) ltac:(lia) ltac:(repeat constructor) E) as E3. change (2 * 1)%nat with 2%nat in E3. rewrite E2 in E3. injection E3 as E4. lra.
Qed.

Lemma C74_odd_proof :
(* an odd number of carriers is rejected *)
  forall (x : list (list C)) (nfft h cp : nat), x <> [] -> Forall (fun c => length c = (2 * h + 1)%nat) x -> ofdm_tx Truncating x nfft (2 * h + 1) cp = Err ValueError.
Proof.
  intros x n h cp Hx HF. destruct x as [|c x]; [congruence|]. apply Forall_inv in HF. unfold ofdm_tx. cbn [foldM]. assert (E2 : ((2 * h + 1) / 2 = h)%nat) by (symmetry; apply (Nat.div_unique _ _ h 1); lia). unfold ofdm_tx_symbol, get_slice, set_slice, bounds.
  rewrite trunc_int, trunc_half, trunc_half1, trunc_neg_half, E2, trunc_neg_int. cbn [bind as_index fst snd]. rewrite !bound_nat, Nat2Z.id, HF, repeat_length, Nat.min_id. cbn [bind]. change 1 with (Z.of_nat 1). rewrite bound_nat.
  replace (Nat.min h (2 * h + 1)) with h by lia. rewrite (firstn_all2 (skipn h c)) by (rewrite skipn_length; lia). assert (LU : length (skipn h c) = (h + 1)%nat) by (rewrite skipn_length; lia). destruct h as [|h].
  - unfold broadcast at 1. cbn [skipn] in *. destruct c as [|c0 [|c1 c]]; cbn [length] in HF; try lia. cbn [length]. replace (Nat.min (0 + 1) n - Nat.min 1 n)%nat with 0%nat by lia. cbn [Nat.eqb bind repeat app]. rewrite Nat.add_0_r. rewrite (firstn_skipn (Nat.min 1 n)). rewrite repeat_length. change (- Z.of_nat 0) with 0. rewrite bound_0, !bound_nat, Nat.min_id. cbn [firstn skipn Nat.sub bind]. unfold broadcast. cbn [length]. destruct n as [|n]; [reflexivity|reflexivity].
  - unfold broadcast at 1. rewrite LU. destruct (Nat.eqb_spec (S h + 1) (Nat.min (S h + 1) n - Nat.min 1 n)) as [F|_]; [lia|]. destruct (skipn (S h) c) as [|u [|u' U]]; cbn [length] in LU; try lia. reflexivity.
Qed.

(* Proofs of the end-to-end properties C69, C70. *)
From Coq Require Import Reals Lra Permutation.
From Verif Require Import Base UtilModel UtilProofs TrellisModel TrellisSpec TrellisProofs FloatRate ConvProofs ConvCode ConvMore ConvTop
  ViterbiModel ViterbiReal ViterbiSpec ViterbiProofs ViterbiArray ViterbiRun ViterbiCore ViterbiInst ViterbiTop
  LinksModel LinksSpec LinksProofs LinksTop PunctModel PunctProofs WifiModel WifiSpec WifiProofs WifiTop
  Cplx MimoModel ChannelModel ChannelSpec ModemModel ModemSpec GrayProofs ModemProofs ModemSoft ModemNoise ModemTop WifiLinkModel.
From Verif Require MimoProofs ChannelHist LdpcModel LdpcSpec LdpcDecModel LdpcBPSpec LdpcProofs LdpcTop.
Local Open Scope Z_scope.

(* ---------------------------------------------------------------- constellations of the ten schemes *)
Lemma wifi_sizes_cases : forall mcs psk m, wifi_modem mcs = Ok (psk, m) -> exists e, (1 <= e <= 4)%nat /\ (m = 2 \/ m = 4 ^ Z.of_nat e) /\ (m = 2 -> psk = true).
Proof.
  intros mcs psk m E. unfold wifi_modem, py_get, py_idx in E. change (Datatypes.length wifi_sizes) with 10%nat in E.
  assert (H : forall n a, nth_error wifi_sizes n = Some a -> exists e, (1 <= e <= 4)%nat /\ (a = 2 \/ a = 4 ^ Z.of_nat e) /\ (a = 2 -> n = 0%nat)).
  { intros n a Hn. do 10 (destruct n as [|n]; [injection Hn as <-; first [exists 1%nat; split; [lia|]; split; [first [left; reflexivity|right; reflexivity]|first [reflexivity|discriminate]] | exists 2%nat; split; [lia|]; split; [right; reflexivity|discriminate] | exists 3%nat; split; [lia|]; split; [right; reflexivity|discriminate] | exists 4%nat; split; [lia|]; split; [right; reflexivity|discriminate]]|]). destruct n; discriminate Hn. }
  unfold bind in E. destruct ((0 <=? mcs) && (mcs <? Z.of_nat 10)) eqn:H1.
  - destruct (nth_error wifi_sizes (Z.to_nat mcs)) as [a|] eqn:En; [|discriminate]. injection E as <- <-. destruct (H _ _ En) as (e & He & Ha & Hz). exists e. split; [exact He|]. split; [exact Ha|]. intros H2. specialize (Hz H2). apply Z.leb_le. lia.
  - destruct ((- Z.of_nat 10 <=? mcs) && (mcs <? 0)) eqn:H2; [|discriminate]. destruct (nth_error wifi_sizes _) as [a|] eqn:En; [|discriminate]. injection E as <- <-. destruct (H _ _ En) as (e & He & Ha & Hz). exists e. split; [exact He|]. split; [exact Ha|]. intros _. apply Z.leb_le. lia.
Qed.
Lemma odd_distance : forall n p p', odd_point n p -> odd_point n p' -> p <> p' -> (2 <= Cabs (p - p')%C)%R.
Proof.
  intros n p p' (a & b & A & B) (a' & b' & A' & B') Hne. unfold Cabs. rewrite <- (sqrt_square 2) by lra. apply sqrt_le_1_alt. unfold Cnorm2, Csub. cbn [re im]. rewrite A, B, A', B'.
  replace (2 * IZR a - INR n + 1 - (2 * IZR a' - INR n + 1))%R with (2 * IZR (a - a'))%R by (rewrite minus_IZR; ring). replace (2 * IZR b - INR n + 1 - (2 * IZR b' - INR n + 1))%R with (2 * IZR (b - b'))%R by (rewrite minus_IZR; ring).
  assert (Hd : a - a' <> 0 \/ b - b' <> 0). { destruct (Z.eq_dec a a') as [->|]; [|left; lia]. destruct (Z.eq_dec b b') as [->|]; [|right; lia]. exfalso. apply Hne. apply C_ext; congruence. }
  assert (Q : forall z, (0 <= IZR z * IZR z)%R) by (intros z; apply Rle_0_sqr). assert (Q1 : forall z, z <> 0 -> (1 <= IZR z * IZR z)%R). { intros z Hz. rewrite <- mult_IZR. apply IZR_le. nia. }
  pose proof (Q (a - a')). pose proof (Q (b - b')). destruct Hd as [Hd|Hd]; apply Q1 in Hd; nra.
Qed.
Definition wifi_distance (psk : bool) (m : Z) : R := if psk then (2 * sin (PI / IZR m))%R else 2%R.
Lemma wifi_ready : forall mcs psk m, wifi_modem mcs = Ok (psk, m) -> exists md c, wifi_get_modem mcs = Ok md /\ modem_init c true = Ok md /\ NoDup c /\ (2 <= length c)%nat /\
  Z.of_nat (num_bits md) = wifi_bits_per_symbol m /\ (0 < energy md)%R /\ (0 < wifi_distance psk m)%R /\ 2 <= m /\ m = 2 ^ Z.of_nat (num_bits md) /\
  forall p p', In p c -> In p' c -> p <> p' -> (wifi_distance psk m <= Cabs (p - p')%C)%R.
Proof.
  intros mcs psk m E. destruct (wifi_sizes_cases _ _ _ E) as (e & He & Hm & H2). assert (Hpi := PI_RGT_0).
  assert (HE : exists b, (1 <= b)%nat /\ m = 2 ^ Z.of_nat b /\ (psk = false -> (b = 2 * e)%nat)). { destruct Hm as [->| ->]; [exists 1%nat; split; [lia|]; split; [reflexivity|]; intros F; rewrite H2 in F by reflexivity; discriminate|]. exists (2 * e)%nat. split; [lia|]. split; [|reflexivity]. change 4 with (2 ^ 2). rewrite <- Z.pow_mul_r by lia. f_equal. lia. }
  destruct HE as (b & Hb & Eb & Hq). assert (Hm2 : 2 <= m). { rewrite Eb. change 2 with (2 ^ 1) at 1. apply Z.pow_le_mono_r; lia. }
  assert (En : Z.to_nat m = (2 ^ b)%nat) by (rewrite Eb, <- Zpow_nat, Nat2Z.id; reflexivity). assert (EI : INR (2 ^ b) = IZR m) by (rewrite INR_IZR_INZ, Zpow_nat, Eb; reflexivity).
  assert (EL : wifi_bits_per_symbol m = Z.of_nat b) by (unfold wifi_bits_per_symbol; rewrite Eb; apply Z.log2_pow2; lia).
  destruct psk.
  - destruct (C41_psk_proof b Hb) as (md & l & EM & EN & _). exists md, (psk_points (2 ^ b)). assert (EG : wifi_get_modem mcs = Ok md) by (unfold wifi_get_modem; rewrite E; cbn [bind fst snd]; rewrite En; exact EM). destruct (psk_ready _ _ EM) as (EI' & Hge).
    split; [exact EG|]. split; [exact EI'|]. split; [apply psk_nodup|]. split; [rewrite psk_length; exact Hge|]. split; [rewrite EN, EL; reflexivity|]. split; [rewrite (proj1 (C44_psk_qam_proof (2 ^ b)) md EM); lra|].
    assert (Hs : (0 < wifi_distance true m)%R). { unfold wifi_distance. apply Rmult_lt_0_compat; [lra|]. apply IZR_le in Hm2. apply sin_gt_0; [apply Rdiv_lt_0_compat; lra|]. apply (Rmult_lt_reg_r (IZR m)); [lra|]. unfold Rdiv. rewrite Rmult_assoc, Rinv_l by lra. nra. }
    split; [exact Hs|]. split; [exact Hm2|]. split; [rewrite EN; exact Eb|]. intros p p' Hp Hp' Hpp. unfold wifi_distance. rewrite <- EI. apply psk_distance; assumption.
  - specialize (Hq eq_refl). destruct (C41_qam_proof e ltac:(lia)) as (md & l & EM & EN & _). assert (E4 : (4 ^ e = 2 ^ b)%nat) by (rewrite Hq, Nat.pow_mul_r; reflexivity). rewrite E4 in EM. destruct (qam_ready _ _ EM) as (h & c & Ec & EI' & ND & Hc). exists md, c.
    split; [unfold wifi_get_modem; rewrite E; cbn [bind fst snd]; rewrite En; exact EM|]. split; [exact EI'|]. split; [exact ND|]. split; [exact Hc|]. split; [rewrite EN, EL, Hq; reflexivity|]. split.
    { rewrite (proj2 (C44_psk_qam_proof (2 ^ b)) md EM), EI. apply IZR_le in Hm2. lra. }
    split; [unfold wifi_distance; lra|]. split; [exact Hm2|]. split; [rewrite EN, <- Hq; exact Eb|]. intros p p' Hp Hp' Hpp. pose proof (qam_odd_points h c Ec) as HO. rewrite Forall_forall in HO. apply (odd_distance (2 * h)); auto.
Qed.

Lemma mapM_len : forall {A B} (f : A -> res B) l r, mapM f l = Ok r -> length r = length l.
Proof.
  intros A B f l. induction l as [|x l IH]; intros r H; cbn [mapM] in H; [injection H as <-; reflexivity|]. destruct (f x); [|discriminate]. cbn [bind] in H. destruct (mapM f l) as [r'|]; [|discriminate]. cbn [bind] in H. injection H as <-. cbn [length]. f_equal. apply IH. reflexivity.
Qed.
Lemma awgn_output : forall ch sd s n1 n2 g1 g2, s_std ch = Some (Some sd) -> s_fading ch = (C1, true, 0%R) -> s_complex ch = true -> s <> [] ->
  exists ch', siso_propagate ch s true n1 n2 g1 g2 = (ch', Ok (Num (map (fun i => (nth i s C0 + noise true sd (n1 i) (n2 i))%C) (seq 0 (length s))))) /\ s_std ch' = Some (Some sd) /\ s_fading ch' = (C1, true, 0%R) /\ s_complex ch' = true.
Proof.
  intros ch sd s n1 n2 g1 g2 I1 I2 I3 Hne. unfold siso_propagate. rewrite I1, I2, I3. destruct s as [|s0 s'] eqn:Es; [congruence|]. rewrite <- Es in *. clear Es Hne s0 s'. cbn [andb negb]. unfold np_sqrt. destruct (Rlt_dec (1 / 2 * 0) 0) as [F|_]; [lra|].
  match goal with |- exists _, (?a, Ok (Num ?b)) = _ /\ _ => exists a; assert (EB : b = map (fun i => (nth i s C0 + noise true sd (n1 i) (n2 i))%C) (seq 0 (length s))); [|rewrite EB; repeat split] end.
  assert (X : combine (map (fun i => siso_gain true C1 (sqrt (1 / 2 * 0)) (g1 i) (g2 i)) (seq 0 (length s))) s = map (fun i => (siso_gain true C1 (sqrt (1 / 2 * 0)) (g1 i) (g2 i), nth i s C0)) (seq 0 (length s))) by (rewrite <- (MimoProofs.map_nth_seq_id s C0) at 2; apply ChannelHist.combine_same).
  rewrite X, map_map, ChannelHist.combine_same, map_map. apply map_ext. intros i. cbn [fst snd]. f_equal. unfold siso_gain. rewrite Rmult_0_r, sqrt_0. creal.
Qed.
Lemma carries_nth : forall (xs : list R) (bs : list Z), length xs = length bs -> (forall i, (i < length bs)%nat -> carries (nth i xs 0%R) (nth i bs 0)) -> Forall2 carries xs bs.
Proof.
  intros xs bs. revert xs. induction bs as [|b bs IH]; intros [|x xs] HL H; try discriminate HL; [constructor|]. constructor; [exact (H 0%nat ltac:(cbn; lia))|]. apply IH; [cbn in HL; lia|]. intros i Hi. exact (H (S i) ltac:(cbn; lia)).
Qed.
Lemma bit_errors_same : forall l, bit_errors l l = 0.
Proof. intros l. unfold bit_errors. induction l as [|x l IH]; [reflexivity|]. cbn [combine filter fst snd]. rewrite Z.eqb_refl. exact IH. Qed.
Lemma Zsum_zeros : forall n, Zsum (repeat 0 n) = 0.
Proof. induction n as [|n IH]; [reflexivity|]. unfold Zsum in *. cbn [repeat fold_right]. rewrite IH. reflexivity. Qed.
Lemma map_repeat' : forall {A B} (f : A -> B) x n, map f (repeat x n) = repeat (f x) n.
Proof. intros. induction n; [reflexivity|]. cbn [repeat map]. f_equal. assumption. Qed.

(* ---------------------------------------------------------------- a link that never makes an error *)
Section ErrorFree.
Context {W Snr Sy Y G V : Type} (m : link W Snr Sy Y G V) (Inv : W -> Prop) (chunk ncps : nat).
Hypothesis sends : forall w, Inv w -> exists msg w', transmit m w (chunk * ncps) = Ok (msg, msg, w') /\ length msg = (chunk * ncps)%nat /\ bits msg /\ Inv w'.
Lemma chunk_errors_zero : forall msg, bits msg -> chunk_errors chunk ncps msg msg = Ok (repeat 0 ncps).
Proof.
  intros msg Hb. unfold chunk_errors. rewrite (mapM_Ok _ (fun _ => 0)).
  - f_equal. rewrite <- (seq_length ncps 0) at 2. generalize (seq 0 ncps). intros l. induction l as [|x l IH]; [reflexivity|]. cbn [map length repeat]. f_equal. exact IH.
  - intros i _. rewrite xor_sum_bits by (try apply LinksProofs.bits_slice; trivial). rewrite bit_errors_same. reflexivity.
Qed.
Lemma tx_loop_zero : forall err_min stop n k w, 0 <= err_min -> Inv w -> exists w', tx_loop n m err_min chunk ncps stop (repeat (0, 0, Z.of_nat ncps) k) w = Ok (repeat (0, 0, Z.of_nat ncps) (k + n), w') /\ Inv w'.
Proof.
  intros err_min stop n. induction n as [|n IH]; intros k w He HI; cbn [tx_loop]; [exists w; rewrite Nat.add_0_r; split; [reflexivity|exact HI]|].
  rewrite map_repeat'. cbn [fst]. rewrite Zsum_zeros. replace (err_min <? 0) with false by (symmetry; apply Z.ltb_ge; exact He). rewrite andb_false_r.
  destruct (sends w HI) as (msg & w1 & Et & Hl & Hb & HI1). rewrite Et. cbn [bind]. rewrite (chunk_errors_zero msg Hb). cbn [bind]. rewrite Zsum_zeros, map_repeat'. change (0 <? 0) with false. cbv iota. rewrite Zsum_zeros.
  change [(0, 0, Z.of_nat ncps)] with (repeat (0, 0, Z.of_nat ncps) 1). rewrite <- repeat_app. destruct (IH (k + 1)%nat w1 He HI1) as (w' & E & HI'). exists w'. rewrite E. split; [|exact HI']. do 3 f_equal. lia.
Qed.
Lemma full_zero : forall tx_max err_min stop w s snrs w1, 1 <= err_min -> l_set_snr m w s = Ok w1 -> Inv w1 ->
  snr_loop_full m tx_max err_min chunk ncps stop w (s :: snrs) =
    Ok ({| BER := Some (0, Z.of_nat tx_max * Z.of_nat chunk); BE := repeat 0 tx_max; CE := repeat 0 tx_max; NC := repeat (Z.of_nat ncps) tx_max |} ::
        repeat {| BER := None; BE := repeat 0 tx_max; CE := repeat 0 tx_max; NC := repeat 0 tx_max |} (length snrs)).
Proof.
  intros tx_max err_min stop w s snrs w1 He Es HI. cbn [snr_loop_full]. rewrite Es. cbn [bind]. destruct (tx_loop_zero err_min stop tx_max 0 w1 ltac:(lia) HI) as (w' & E & _). cbn [repeat Nat.add] in E. rewrite E. cbn [bind].
  rewrite !map_repeat'. cbn [fst snd]. unfold pad_row. rewrite !repeat_length, Nat.sub_diag. cbn [repeat]. rewrite !app_nil_r, Zsum_zeros, map_repeat'. change (0 <? 0) with false. cbv iota. replace (0 <? err_min) with true by (symmetry; apply Z.ltb_lt; lia). reflexivity.
Qed.
End ErrorFree.
Lemma wifi_bits_out : forall garbage tr mcs p q msg out, wifi_trellis garbage = Ok tr -> wifi_coding mcs = Ok (p, q) -> bits msg -> Z.of_nat (length msg) < 2 ^ 48 -> (0 < length msg)%nat -> (p | Z.of_nat (length msg)) ->
  wifi_code_bits tr (p, q) msg = Ok out -> bits out.
Proof.
  intros garbage tr mcs p q msg out E Ec Hb Hl Hpos Hpd Eo. destruct (C60_depuncturing_proof garbage tr mcs p q msg E Ec Hb Hl Hpos Hpd) as (coded & out' & E1 & _).
  assert (Hcb : bits coded). { destruct (wifi_encode garbage tr msg E Hb ltac:(change (2 ^ 49) with (2 ^ 48 * 2); lia)) as (us & E1' & _). rewrite E1 in E1'. injection E1' as ->. apply bits_bitstream. }
  unfold wifi_code_bits in Eo. rewrite E1 in Eo. cbn [bind fst snd] in Eo. destruct (wifi_puncture_matrix p q) as [v|] eqn:Ev; [|injection Eo as <-; exact Hcb].
  assert (Hv : (1 <= length v)%nat) by (eapply vector_facts; [eapply codings_cases; exact Ec|exact Ev]). rewrite (puncturing_spec 0 v coded Hv) in Eo. injection Eo as <-.
  unfold bits in *. rewrite Forall_forall in *. intros x Hx. apply in_map_iff in Hx. destruct Hx as (i & <- & Hi). destruct (Nat.lt_ge_cases i (length coded)) as [Hlt|Hge]; [apply Hcb, nth_In, Hlt|rewrite nth_overflow by exact Hge; left; reflexivity].
Qed.

Lemma C69_wifi_chain_proof :
(* every scheme: encode, puncture, modulate; noise of magnitude at most r on every symbol; soft demodulation, depuncturing, soft
     decoding: the message comes back *)
  forall (garbage : regs) (tr : Trellis) (mcs p q m send_chunk : Z) (psk : bool) (md : modem) (frames : nat) (msg : list Z) (r v : R),
    wifi_trellis garbage = Ok tr -> wifi_coding mcs = Ok (p, q) -> wifi_modem mcs = Ok (psk, m) -> wifi_get_modem mcs = Ok md ->
    bits msg -> (5 <= length msg)%nat -> Z.of_nat (length msg) < 2 ^ 48 ->
    Z.of_nat (length msg) = round_chunk (wifi_bits_per_symbol m) p q send_chunk * Z.of_nat frames ->
    let d := if psk then (2 * sin (PI / IZR m))%R else 2%R in            (* the distance of the constellation *)
    (0 < v)%R -> (v * ln (IZR m / 2) < d * (d - 2 * r))%R ->
    exists out s, wifi_code_bits tr (p, q) msg = Ok out /\ modulate md out = Ok s /\
      forall ys, Forall2 (fun x y => (Cabs (y - x)%C <= r)%R) s ys ->
        exists llrs, demodulate md ys Soft v = Ok (inr llrs) /\
          forall gp gs, shaped (rate_half 5 43 MSB) gs -> exists caller, wifi_decode tr (p, q) llrs gp gs = Ok (map Some msg, caller).
Proof.
  intros garbage tr mcs p q m sc psk md frames msg r v E Ec Em EM Hb H5 H48 Hlen d Hv Hm. destruct (wifi_ready mcs psk m Em) as (md' & c & EM' & EI & ND & Hc & Hnb & Hen & Hd0 & Hm2 & Hmp & Hd). rewrite EM in EM'. injection EM' as <-.
  change d with (wifi_distance psk m) in Hm. clearbody d. assert (Hfr : (1 <= frames)%nat) by (destruct frames; [cbn in Hlen; lia|lia]).
  destruct (C60_lengths_proof garbage tr mcs p q m 1 sc psk frames msg E Ec Em ltac:(lia) Hfr) as (coded & out & E1 & L1 & E2 & L2 & L3 & _); [rewrite Z.mul_1_r; exact Hlen|exact Hb|exact H48|]. cbv zeta in L3. rewrite Z.mul_1_r in L3.
  pose proof (codings_cases _ _ _ Ec) as Hin. destruct (pq_pos p q Hin) as [Hp0 Hpq].
  assert (Hpd : (p | Z.of_nat (length msg))). { apply (Z.gauss p q); [exists (Z.of_nat (length out)); lia|]. destruct Hin as [H|[H|[H|[H|[]]]]]; injection H as <- <-; reflexivity. }
  assert (Hob : bits out) by (eapply wifi_bits_out; try eassumption; lia).
  assert (Hne : out <> []) by (intros F; rewrite F in L2; cbn in L2; nia).
  assert (Hn1 : (1 <= num_bits md)%nat) by (eapply init_ready; eassumption).
  assert (Hmod : (length out mod num_bits md = 0)%nat). { apply Nat2Z.inj. rewrite Nat2Z.inj_mod, Hnb. destruct L3 as [k ->]. apply Z.mod_mul. lia. }
  assert (Hln : (IZR m / 2)%R = INR (2 ^ (num_bits md - 1))). { rewrite INR_IZR_INZ, Zpow_nat, Hmp. replace (Z.of_nat (num_bits md)) with (Z.of_nat (num_bits md - 1) + 1) by lia. rewrite Z.pow_add_r by lia. rewrite mult_IZR. change (2 ^ 1) with 2. field. }
  rewrite Hln in Hm.
  destruct (C68_soft_signs_proof c true md out (wifi_distance psk m) r v EI ND Hc Hob Hne Hmod Hd Hd0 Hv Hm) as (s & Es & Hs). exists out, s. split; [exact E2|]. split; [exact Es|].
  intros ys HF. destruct (Hs ys HF) as (llrs & El & Ll & Hsg). exists llrs. split; [exact El|]. intros gp gs Hg.
  apply (C60_noiseless_proof garbage tr mcs p q msg out llrs gp gs E Ec Hb H48 H5 Hpd Hg E2).
  apply carries_nth; [exact Ll|]. intros i Hi. destruct (Hsg i Hi) as (S1 & S0). unfold bits in Hob. rewrite Forall_forall in Hob. destruct (Hob (nth i out 0) (nth_In _ _ Hi)) as [Hz|Hz]; [right|left]; (split; [exact Hz|]); auto.
Qed.

Lemma C69_wifi_link_proof :
(* Wifi80211(mcs).link_performance over a complex AWGN channel whose noise draws are bounded: no bit error is counted, tx_max
     transmissions of frame_aggregation chunks are made at the first SNR and the other SNRs are skipped *)
  forall (garbage : regs) (dr : wifi_draws) (mcs p q m : Z) (psk : bool) (md : modem) (noise_std : option R) (channel : siso) (snr : R) (snrs : list R) (tx_max : nat) (err_min : Z)
         (send_chunk : option Z) (frames : nat) (stop : bool) (r : R),
    wifi_coding mcs = Ok (p, q) -> wifi_modem mcs = Ok (psk, m) -> wifi_get_modem mcs = Ok md -> siso_init noise_std (C1, true, 0%R) = Ok channel ->
    (forall t, shaped (rate_half 5 43 MSB) (d_scratch dr t)) -> 1 <= err_min ->
    let chunk := round_chunk (wifi_bits_per_symbol m) p q (match send_chunk with Some c => c | None => err_min end) in
    5 <= chunk * Z.of_nat frames < 2 ^ 48 ->
    let d := if psk then (2 * sin (PI / IZR m))%R else 2%R in
    let v := (2 * energy md / (IZR p / IZR q * Rpower 10 (snr / 10)))%R in
    (forall t i, (sqrt v / 2 * Cabs (mkC (d_n1 dr t i) (d_n2 dr t i)) <= r)%R) -> (v * ln (IZR m / 2) < d * (d - 2 * r))%R ->
    wifi_link_performance garbage dr mcs channel (snr :: snrs) tx_max err_min send_chunk frames stop =
      Ok ({| BER := Some (0, Z.of_nat tx_max * chunk); BE := repeat 0 tx_max; CE := repeat 0 tx_max; NC := repeat (Z.of_nat frames) tx_max |} ::
          repeat {| BER := None; BE := repeat 0 tx_max; CE := repeat 0 tx_max; NC := repeat 0 tx_max |} (length snrs)).
Proof.
  intros garbage dr mcs p q m psk md nstd channel snr snrs tx_max err_min sc frames stop r Ec Em EM EC Hg He chunk Hchunk d v Hnoise Hm.
  destruct (wifi_ready mcs psk m Em) as (md' & c & EM' & EI & ND & Hc & Hnb & Hen & Hd0 & Hm2 & Hmp & Hd). assert (md' = md) by congruence. subst md'. clear EM'.
  destruct (C59_generators_proof garbage garbage) as (tr & Etr & _). pose proof (codings_cases _ _ _ Ec) as Hin. destruct (pq_pos p q Hin) as [Hp0 Hpq].
  assert (Hq100 : q <= 100) by (destruct Hin as [H|[H|[H|[H|[]]]]]; injection H as <- <-; lia). destruct (link_rate p q) as [n0 d0] eqn:ER.
  destruct (C60_float_rate_proof p q n0 d0 ltac:(lia) Hq100 ER) as (R1 & R2 & R3).
  assert (n0 = p /\ d0 = q) as [-> ->]. { assert (G : Z.gcd p q = 1) by (destruct Hin as [H|[H|[H|[H|[]]]]]; injection H as <- <-; reflexivity). assert (D1 : (d0 | q)). { apply (Z.gauss d0 n0); [exists p; lia|rewrite Z.gcd_comm; exact R2]. } assert (D2 : (q | d0)). { apply (Z.gauss q p); [exists n0; lia|rewrite Z.gcd_comm; exact G]. } assert (d0 = q) by (apply Z.divide_antisym_nonneg; lia || assumption). subst d0. split; [nia|reflexivity]. }
  unfold wifi_link_performance. rewrite Etr, Ec, EM. cbn [bind fst snd]. rewrite ER. unfold link_performance_full_metrics.
  cbn [num_bits_symbol nb_tx wifi_link]. change (Z.of_nat 1) with 1. rewrite Z.mul_1_r, Hnb. fold chunk. set (lk := wifi_link _ _ _ _ _).
  assert (HR : (0 < IZR p / IZR q)%R) by (apply Rdiv_lt_0_compat; apply IZR_lt; lia). assert (HP : (0 < Rpower 10 (snr / 10))%R) by apply exp_pos. assert (HRP : (0 < IZR p / IZR q * Rpower 10 (snr / 10))%R) by (apply Rmult_lt_0_compat; assumption).
  assert (Hv : (0 < v)%R) by (unfold v; apply Rdiv_lt_0_compat; lra).
  assert (EC0 : s_fading channel = (C1, true, 0%R) /\ s_complex channel = true). { unfold siso_init, siso_set in EC. destruct (Req_EM_T _ 1); [|discriminate]. injection EC as <-. split; reflexivity. } destruct EC0 as [EF Ecx].
  set (Inv := fun w : wifi_world => s_std (w_channel w) = Some (Some (sqrt v)) /\ s_fading (w_channel w) = (C1, true, 0%R) /\ s_complex (w_channel w) = true).
  assert (Hchunk0 : 0 < chunk) by (unfold chunk; apply round_chunk_facts; lia || (rewrite <- Hnb; assert (1 <= num_bits md)%nat by (eapply init_ready; eassumption); lia)).
  rewrite <- (Z2Nat.id chunk) at 2 by lia.
  assert (ES : l_set_snr lk {| w_channel := channel; w_sent := 0 |} snr = Ok {| w_channel := siso_with_std channel (Some (Some (sqrt v))); w_sent := 0 |}).
  { cbn [lk wifi_link l_set_snr w_channel w_sent siso_do]. unfold snr_dB. destruct (Req_EM_T _ 0) as [F|_]; [lra|]. rewrite Ecx. unfold np_sqrt. change (INR 1) with 1%R. replace ((1 + 1) * 1 * energy md / (IZR p / IZR q * Rpower 10 (snr / 10)))%R with v by (unfold v; f_equal; ring). destruct (Rlt_dec v 0); [lra|]. reflexivity. }
  apply (full_zero lk Inv (Z.to_nat chunk) frames) with (w1 := {| w_channel := siso_with_std channel (Some (Some (sqrt v))); w_sent := 0 |}); [|exact He|exact ES|split; [reflexivity|split; [exact EF|exact Ecx]]].
  clear ES. intros w (I1 & I2 & I3). set (N := (Z.to_nat chunk * frames)%nat). set (msg := map (fun i => Z.b2z (d_bits dr (w_sent w) i)) (seq 0 N)).
  assert (Hb : bits msg). { apply Forall_forall. intros x Hx. apply in_map_iff in Hx. destruct Hx as (i & <- & _). destruct (d_bits dr (w_sent w) i); [right|left]; reflexivity. }
  assert (HL : length msg = N) by (unfold msg; rewrite map_length, seq_length; reflexivity). assert (HLz : Z.of_nat (length msg) = chunk * Z.of_nat frames) by (rewrite HL; unfold N; rewrite Nat2Z.inj_mul, Z2Nat.id by lia; reflexivity).
  destruct (C69_wifi_chain_proof garbage tr mcs p q m (match sc with Some c => c | None => err_min end) psk md frames msg r v Etr Ec Em EM Hb ltac:(lia) ltac:(lia) HLz Hv Hm) as (out & s & E1 & E2 & Hrx).
  set (ys := map (fun i => (nth i s C0 + noise true (sqrt v) (d_n1 dr (w_sent w) i) (d_n2 dr (w_sent w) i))%C) (seq 0 (length s))).
  assert (HF : Forall2 (fun x y => (Cabs (y - x)%C <= r)%R) s ys).
  { unfold ys. rewrite <- (MimoProofs.map_nth_seq_id s C0) at 1. generalize (seq 0 (length s)). intros l. induction l as [|i l IH]; [constructor|]. cbn [map]. constructor; [|exact IH].
    replace (nth i s C0 + noise true (sqrt v) (d_n1 dr (w_sent w) i) (d_n2 dr (w_sent w) i) - nth i s C0)%C with (noise true (sqrt v) (d_n1 dr (w_sent w) i) (d_n2 dr (w_sent w) i)) by creal.
    eapply Rle_trans; [|apply (Hnoise (w_sent w) i)]. right. unfold noise. set (z := mkC _ _). assert (Hsq : (0 <= sqrt v)%R) by apply sqrt_pos. unfold Cabs. replace (Cnorm2 (Cscale (1 / 2) (Cscale (sqrt v) z))) with ((sqrt v / 2) * (sqrt v / 2) * Cnorm2 z)%R by (unfold Cnorm2, Cscale; cbn [re im]; field). rewrite sqrt_mult by (try apply Cnorm2_nonneg; nra). rewrite sqrt_square by lra. reflexivity. }
  destruct (Hrx ys HF) as (llrs & El & Hdec). clear Hrx. destruct (Hdec (d_paths dr (S (w_sent w))) (d_scratch dr (S (w_sent w))) (Hg _)) as (caller & Ed).
  assert (Hsne : s <> []). { intros F. subst s. assert (Hwf := init_wf _ _ _ EI). assert (Hn1 : (1 <= num_bits md)%nat) by (eapply init_ready; eassumption). unfold modulate in E2. destruct (num_bits md =? 0)%nat; [discriminate|]. destruct out as [|o0 out]; [discriminate|]. apply mapM_len in E2. rewrite seq_length in E2. cbn [length] in E2. symmetry in E2. apply Nat.div_small_iff in E2; lia. }
  destruct (awgn_output (w_channel w) (sqrt v) s (d_n1 dr (w_sent w)) (d_n2 dr (w_sent w)) (d_g1 dr (w_sent w)) (d_g2 dr (w_sent w)) I1 I2 I3 Hsne) as (ch' & EP & J1 & J2 & J3). fold ys in EP.
  eexists msg, _. split; [|split; [exact HL|split; [exact Hb|]]].
  - unfold transmit. cbn [lk wifi_link l_choice l_modulate l_propagate l_receive l_decoder is_mimo nb_tx num_bits_symbol]. fold N. fold msg. rewrite E1. cbn [bind]. rewrite E2. cbn [bind].
    rewrite EP. cbn [bind w_channel w_sent]. rewrite J1. rewrite sqrt_sqrt by lra. rewrite El. cbn [bind]. rewrite Ed. cbn [bind fst]. rewrite map_map, map_id. reflexivity.
  - split; [exact J1|]. split; [exact J2|exact J3].
Qed.

(* ---------------------------------------------------------------- symbol errors and bit errors *)
Lemma mismatch_positions : forall a b, length a = length b -> mismatches a b = Z.of_nat (length (filter (fun i => negb (nth i a 0 =? nth i b 0)) (seq 0 (length a)))).
Proof.
  unfold mismatches. induction a as [|x a IH]; intros [|y b] HL; try discriminate HL; [reflexivity|]. cbn [combine filter fst snd length seq]. injection HL as HL. specialize (IH b HL). change (nth 0 (x :: a) 0) with x. change (nth 0 (y :: b) 0) with y.
  assert (EQ : length (filter (fun i => negb (nth i (x :: a) 0 =? nth i (y :: b) 0)) (seq 1 (length a))) = length (filter (fun i => negb (nth i a 0 =? nth i b 0)) (seq 0 (length a)))).
  { rewrite <- seq_shift. clear IH HL. generalize (seq 0 (length a)). intros l. induction l as [|i l IH]; [reflexivity|]. cbn [map filter]. change (nth (S i) (x :: a) 0) with (nth i a 0). change (nth (S i) (y :: b) 0) with (nth i b 0). destruct (negb (nth i a 0 =? nth i b 0)); cbn [length]; rewrite IH; reflexivity. }
  destruct (negb (x =? y)); cbn [length]; lia.
Qed.
Lemma mismatch_bound : forall a b (P : list nat), length a = length b -> (forall i, (i < length a)%nat -> ~ In i P -> nth i a 0 = nth i b 0) -> mismatches a b <= Z.of_nat (length P).
Proof.
  intros a b P HL H. rewrite mismatch_positions by exact HL. apply inj_le. apply NoDup_incl_length; [apply NoDup_filter, seq_NoDup|]. intros i Hi. apply filter_In in Hi. destruct Hi as [Hi Hd]. apply in_seq in Hi.
  destruct (in_dec Nat.eq_dec i P) as [|Hn]; [assumption|]. rewrite H in Hd by (lia || assumption). rewrite Z.eqb_refl in Hd. discriminate.
Qed.
Lemma bad_bits : forall (bad : list nat) w, length (flat_map (fun k => map (fun j => (k * w + j)%nat) (seq 0 w)) bad) = (length bad * w)%nat.
Proof. intros bad w. induction bad as [|k l IH]; [reflexivity|]. cbn [flat_map length]. rewrite app_length, map_length, seq_length, IH. lia. Qed.
Lemma hard_errors : forall c g md bs s ys v (bad : list nat), modem_init c g = Ok md -> NoDup c -> (2 <= length c)%nat -> bits bs -> bs <> [] -> (length bs mod num_bits md = 0)%nat ->
  modulate md bs = Ok s -> length ys = length s -> (forall k, (k < length s)%nat -> ~ In k bad -> closest c (nth k s C0) (nth k ys C0)) ->
  exists out, demodulate md ys Hard v = Ok (inl out) /\ length out = length bs /\ bits out /\ mismatches out bs <= Z.of_nat (num_bits md * length bad).
Proof.
  intros c g md bs s ys v bad EI ND Hc Hb Hne Hmod Em HL Hbad. pose proof (init_wf _ _ _ EI) as HW. assert (Hn : (1 <= num_bits md)%nat) by (eapply init_ready; eassumption).
  destruct (C42_nearest_proof c g md ys v EI) as (out & lab & E1 & L1 & HQ). exists out. split; [exact E1|].
  rewrite modulate_ok in Em by assumption. injection Em as <-. rewrite map_length, seq_length in *. set (b := num_bits md) in *.
  assert (HB : length bs = (b * (length bs / b))%nat) by (pose proof (Nat.div_mod (length bs) b ltac:(lia)); lia). set (n := (length bs / b)%nat) in *.
  assert (HC : count md bs = n). { unfold count. fold b. symmetry. apply (Nat.div_unique _ _ _ (b - 1)); lia. } rewrite HC in *.
  assert (Lo : length out = length bs) by (rewrite L1, HL; lia). split; [exact Lo|]. pose proof (init_perm _ _ _ EI) as HP.
  assert (NDp : NoDup (points md)) by (eapply Permutation_NoDup; [symmetry; exact HP|exact ND]).
  assert (Hpos : forall i, (i < length out)%nat -> exists q j, i = (q * b + j)%nat /\ (q < n)%nat /\ (j < b)%nat). { intros i Hi. exists (i / b)%nat, (i mod b)%nat. pose proof (Nat.div_mod i b ltac:(lia)) as D. split; [lia|]. split; [|apply Nat.mod_upper_bound; lia]. apply Nat.div_lt_upper_bound; lia. }
  split.
  - apply Forall_forall. intros x Hx. apply (In_nth _ _ 0) in Hx. destruct Hx as (i & Hi & <-). destruct (Hpos i Hi) as (q & j & -> & Hq & Hj). destruct (HQ q ltac:(lia)) as (_ & _ & _ & HD). rewrite (HD j Hj). unfold digit. pose proof (Z.mod_pos_bound (Z.of_nat (lab q) / 2 ^ (Z.of_nat b - 1 - Z.of_nat j)) 2 ltac:(lia)) as M. unfold is_bit. lia.
  - replace (b * length bad)%nat with (length (flat_map (fun k => map (fun j => (k * b + j)%nat) (seq 0 b)) bad)) by (rewrite bad_bits; lia). apply mismatch_bound; [exact Lo|]. intros i Hi Hni. destruct (Hpos i Hi) as (q & j & -> & Hq & Hj).
    assert (Hnq : ~ In q bad). { intros F. apply Hni. apply in_flat_map. exists q. split; [exact F|]. apply in_map_iff. exists j. split; [reflexivity|]. apply in_seq. lia. }
    specialize (Hbad q Hq Hnq). rewrite (nth_indep (map _ _) C0 ((fun k => nth (label md bs k) (points md) C0) 0%nat)) in Hbad by (rewrite map_length, seq_length; lia). rewrite (map_nth (fun k => nth (label md bs k) (points md) C0)) in Hbad. rewrite seq_nth in Hbad by lia. cbn [Nat.add] in Hbad.
    destruct (HQ q ltac:(lia)) as (R1 & R2 & _ & HD). rewrite (HD j Hj). pose proof (label_range md bs q HW Hb) as [Hl _].
    assert (lab q = label md bs q) as ->. { destruct (Nat.eq_dec (lab q) (label md bs q)) as [|Hx]; [assumption|]. exfalso. specialize (R2 _ Hl). assert (Hne' : nth (lab q) (points md) C0 <> nth (label md bs q) (points md) C0) by (intros F; apply Hx; apply (NoDup_nth (points md) C0); assumption).
      specialize (Hbad (nth (lab q) (points md) C0)). assert (Hin : In (nth (lab q) (points md) C0) c) by (eapply Permutation_in; [exact HP|apply nth_In, R1]). specialize (Hbad Hin Hne'). lra. }
    apply symbol_digits; try assumption; fold b; nia.
Qed.

Lemma C69_hard_proof :
(* convolutional code of distance d, any constellation of b bits, hard decisions: symbol errors at fewer than d / (2 b) positions are corrected *)
  forall (garbage : regs) (C : code) (tr : Trellis) (msg coded : list Z) (B : nat) (tb_depth : option nat) gp (gs : nat -> scratch Z) (d : Z) (c : list Cplx.C) (g : bool) (md : modem),
    trellis_of garbage C false = Ok tr -> fback C = None -> decodable C B gs -> usable C B tb_depth -> rate_ok (kk C) (outs C) = true ->
    Z.of_nat (length msg + 2 * MM C) * Z.of_nat (outs C) < 2 ^ 49 ->
    bits msg -> (length msg + MM C + MM C mod kk C = B * kk C)%nat -> (max_mem (TrellisSpec.memory C) * kk C <= MM C + MM C mod kk C)%nat ->
    conv_encode msg tr Term None = Ok coded -> window_distance C tr B tb_depth d ->
    modem_init c g = Ok md -> NoDup c -> (2 <= length c)%nat -> coded <> [] -> (length coded mod num_bits md = 0)%nat ->
    exists s, modulate md coded = Ok s /\
      forall (ys : list Cplx.C) (v : R) (bad : list nat), length ys = length s ->
        (forall k, (k < length s)%nat -> ~ In k bad -> closest c (nth k s C0) (nth k ys C0)) -> 2 * Z.of_nat (num_bits md * length bad) < d ->
        exists received caller, demodulate md ys Hard v = Ok (inl received) /\
          viterbi_decode Z.add Z.leb 0 hard received tr tb_depth gp gs = Ok (map Some (msg ++ repeat 0 (MM C + MM C mod kk C)), caller).
Proof.
  intros garbage C tr msg coded B o gp gs d c g md E Hf HD HU Hr Hbig2 Hbm HL Hmax Henc Hwd EI ND Hc Hne Hmod. pose proof (init_wf _ _ _ EI) as HW. assert (Hn : (1 <= num_bits md)%nat) by (eapply init_ready; eassumption).
  assert (Hb : bits coded). { pose proof HD as (WF & _ & Hn1 & _). pose proof E as E0. rewrite trellis_of_spec in E by exact WF. injection E as <-. destruct (encode_is_encoded C msg coded B WF Hf Hn1 Hr Hbig2 Hbm HL Hmax Henc) as (-> & _). apply bits_bitstream. }
  eexists. split; [rewrite modulate_ok by assumption; reflexivity|]. intros ys v bad Hys Hbad Hd.
  destruct (hard_errors c g md coded _ ys v bad EI ND Hc Hb Hne Hmod (modulate_ok md coded HW Hn Hb Hne) Hys Hbad) as (out & E1 & L1 & Hob & Hmm).
  destruct (C65_end_to_end_proof garbage C tr msg coded out B o gp gs d E Hf HD HU Hr Hbig2 Hbm HL Hmax Henc Hwd Hob L1 ltac:(lia)) as (caller & E2). exists out, caller. split; assumption.
Qed.

Lemma C69_soft_proof :
(* soft decisions: noise of magnitude at most r on every symbol; both soft decoders (terminated) return the message *)
  forall (garbage : regs) (C : code) (tr : Trellis) (msg coded : list Z) (B : nat) (tb_depth : option nat) gp (gs : nat -> scratch R) (c : list Cplx.C) (g : bool) (md : modem) (d r v : R),
    trellis_of garbage C false = Ok tr -> fback C = None -> decodable C B gs -> usable C B tb_depth -> output_injective C -> rate_ok (kk C) (outs C) = true ->
    Z.of_nat (length msg + 2 * MM C) * Z.of_nat (outs C) < 2 ^ 49 ->
    bits msg -> (length msg + MM C + MM C mod kk C = B * kk C)%nat -> (max_mem (TrellisSpec.memory C) * kk C <= MM C + MM C mod kk C)%nat ->
    conv_encode msg tr Term None = Ok coded ->
    modem_init c g = Ok md -> NoDup c -> (2 <= length c)%nat -> coded <> [] -> (length coded mod num_bits md = 0)%nat ->
    (forall p p', In p c -> In p' c -> p <> p' -> (d <= Cabs (p - p')%C)%R) -> (0 < d)%R -> (0 < v)%R -> (v * ln (INR (2 ^ (num_bits md - 1))) < d * (d - 2 * r))%R ->
    exists s, modulate md coded = Ok s /\
      forall ys : list Cplx.C, Forall2 (fun x y => (Cabs (y - x)%C <= r)%R) s ys ->
        exists llrs caller caller', demodulate md ys Soft v = Ok (inr llrs) /\
          viterbi_decode Rplus Rleb 0%R soft llrs tr tb_depth gp gs = Ok (map Some (msg ++ repeat 0 (MM C + MM C mod kk C)), caller) /\
          viterbi_decode Rplus Rleb 0%R unquantized llrs tr tb_depth gp gs = Ok (map Some (msg ++ repeat 0 (MM C + MM C mod kk C)), caller').
Proof.
  intros garbage C tr msg coded B o gp gs c g md d r v E Hf HD HU HO Hr Hbig2 Hbm HL Hmax Henc EI ND Hc Hne Hmod Hd Hd0 Hv Hm. pose proof HD as (WF & _ & Hn1 & _). pose proof E as E0. rewrite trellis_of_spec in E by exact WF. injection E as <-.
  destruct (encode_is_encoded C msg coded B WF Hf Hn1 Hr Hbig2 Hbm HL Hmax Henc) as (Ec & Ls & Hin & Hw & Hbs). set (us := symbols _ _) in *. rewrite <- Hbs. clearbody us.
  assert (Hb : bits coded) by (rewrite Ec; apply bits_bitstream).
  destruct (C68_soft_signs_proof c g md coded d r v EI ND Hc Hb Hne Hmod Hd Hd0 Hv Hm) as (s & Es & Hs). exists s. split; [exact Es|]. intros ys HF. destruct (Hs ys HF) as (llrs & El & Ll & Hsg).
  assert (HC : Forall2 carries llrs (encoded (the_trellis C false) us)). { rewrite <- Ec. apply carries_nth; [exact Ll|]. intros i Hi. destruct (Hsg i Hi) as (S1 & S0). unfold bits in Hb. rewrite Forall_forall in Hb. destruct (Hb (nth i coded 0) (nth_In _ _ Hi)) as [Hz|Hz]; [right|left]; (split; [exact Hz|]); auto. }
  rewrite <- Ls in HD, HU.
  destruct (C30_soft_signs_proof garbage C false _ us llrs o gp gs E0 HD HU HO Hin HC) as (cl & R1).
  destruct (C30_unquantized_signs_proof garbage C false _ us llrs o gp gs E0 HD HU HO Hin Hw HC) as (cl' & R2). exists llrs, cl, cl'. split; [exact El|]. split; assumption.
Qed.

(* ---------------------------------------------------------------- LDPC *)
Lemma chunks_blocks : forall {A} n (blocks : list (list A)), Forall (fun b => length b = n) blocks -> LdpcModel.chunks n (length blocks) (concat blocks) = blocks.
Proof.
  intros A n blocks H. induction H as [|b l Hb HF IH]; [reflexivity|]. cbn [length concat LdpcModel.chunks]. rewrite <- Hb at 1. rewrite firstn_app, firstn_all, Nat.sub_diag. cbn [firstn]. rewrite app_nil_r.
  f_equal. rewrite <- Hb at 2. rewrite skipn_app, skipn_all, Nat.sub_diag. cbn [app skipn]. exact IH.
Qed.
Lemma chunks_map : forall {A B} (f : A -> B) n k l, LdpcModel.chunks n k (map f l) = map (map f) (LdpcModel.chunks n k l).
Proof. intros A B f n k. induction k as [|k IH]; intros l; [reflexivity|]. cbn [LdpcModel.chunks map]. rewrite firstn_map, skipn_map, IH. reflexivity. Qed.
Lemma concat_len : forall {A} n (blocks : list (list A)), Forall (fun b => length b = n) blocks -> length (concat blocks) = (length blocks * n)%nat.
Proof. intros A n blocks H. induction H as [|b l Hb HF IH]; [reflexivity|]. cbn [concat length]. rewrite app_length, Hb, IH. lia. Qed.
Lemma clip_sign : forall x, LdpcBPSpec.negative (LdpcBPSpec.clip500 x) = LdpcBPSpec.negative x.
Proof.
  intros x. unfold LdpcBPSpec.negative, LdpcBPSpec.clip500, Rmax, Rmin. destruct (Rle_dec 500 x); destruct (Rle_dec _ _); repeat destruct (Rlt_dec _ _); try reflexivity; lra.
Qed.
Lemma triang_vnodes : forall msg p pad, LdpcModel.n_vnodes (fst (LdpcModel.triang_encode msg p pad)) = LdpcModel.n_vnodes p.
Proof.
  intros msg p pad. unfold LdpcModel.triang_encode. assert (HB : LdpcModel.n_vnodes (fst (LdpcModel.build_matrix p)) = LdpcModel.n_vnodes p). { unfold LdpcModel.build_matrix. destruct (LdpcModel.parity_rows p); [|reflexivity]. destruct (negb _); [reflexivity|]. destruct (LdpcModel.inv_matrix _); reflexivity. }
  destruct (LdpcModel.p_gen p), (LdpcModel.p_matrix p); try (destruct (LdpcModel.build_matrix p) as [p' [|]]; exact HB). reflexivity.
Qed.
Lemma signs_block : forall (llrs : list R) (bs : list Z), length llrs = length bs -> bits bs -> (forall i, (i < length bs)%nat -> (nth i bs 0 = 1 -> (0 < nth i llrs 0)%R) /\ (nth i bs 0 = 0 -> (nth i llrs 0 < 0)%R)) ->
  map (fun x => Z.b2z (LdpcBPSpec.negative (LdpcBPSpec.clip500 (- x)))) llrs = bs /\ map (fun x => Z.b2z (LdpcBPSpec.negative (LdpcBPSpec.clip500 x))) llrs = map (fun b => 1 - b) bs.
Proof.
  induction llrs as [|x l IH]; intros [|b bs] HL Hb H; try discriminate HL; [split; reflexivity|]. injection HL as HL. unfold bits in Hb. apply Forall_cons_iff in Hb. destruct Hb as [Hb Hbs]. destruct (H 0%nat ltac:(cbn; lia)) as [H1 H0]. cbn [nth] in H1, H0.
  destruct (IH bs HL Hbs) as [I1 I2]; [intros i Hi; apply (H (S i)); cbn; lia|]. cbn [map]. rewrite I1, I2, !clip_sign. unfold LdpcBPSpec.negative.
  destruct Hb as [-> | ->]; [specialize (H0 eq_refl)|specialize (H1 eq_refl)]; split; f_equal; destruct (Rlt_dec _ 0); try lra; reflexivity.
Qed.
Lemma complement_satisfies : forall H b, LdpcSpec.binary H -> (forall i, (i < length (LdpcModel.a_rows H))%nat -> Zsum (nth i (LdpcModel.a_rows H) []) mod 2 = 0) -> length b = LdpcModel.a_cols H -> LdpcSpec.satisfies H b -> LdpcSpec.satisfies H (map (fun x => 1 - x) b).
Proof.
  intros H b [HS _] Hev HL HSat i Hi. specialize (HSat i Hi). specialize (Hev i Hi). set (n := LdpcModel.a_cols H) in *. set (row := nth i (LdpcModel.a_rows H) []) in *.
  assert (Hrow : length row = n). { unfold LdpcModel.shaped in HS. rewrite Forall_forall in HS. apply HS. apply nth_In. exact Hi. }
  assert (ES : LdpcSpec.sumto n (fun j => LdpcSpec.hij (LdpcModel.a_rows H) i j * nth j (map (fun x => 1 - x) b) 0) = Zsum row - LdpcSpec.sumto n (fun j => LdpcSpec.hij (LdpcModel.a_rows H) i j * nth j b 0)).
  { assert (ER : Zsum row = LdpcSpec.sumto n (fun j => LdpcSpec.hij (LdpcModel.a_rows H) i j)). { unfold LdpcSpec.sumto, LdpcSpec.hij. fold row. f_equal. apply (nth_ext _ _ 0 0); [rewrite map_length, seq_length; exact Hrow|]. intros k Hk. rewrite (nth_indep (map _ _) 0 ((fun j => nth j row 0) 0%nat)) by (rewrite map_length, seq_length; lia). rewrite (map_nth (fun j => nth j row 0)), seq_nth by lia. reflexivity. }
    rewrite ER. unfold LdpcSpec.sumto. assert (G : forall l, (forall j, In j l -> (j < n)%nat) -> Zsum (map (fun j => LdpcSpec.hij (LdpcModel.a_rows H) i j * nth j (map (fun x => 1 - x) b) 0) l) = Zsum (map (fun j => LdpcSpec.hij (LdpcModel.a_rows H) i j) l) - Zsum (map (fun j => LdpcSpec.hij (LdpcModel.a_rows H) i j * nth j b 0) l)).
    { induction l as [|j l IHl]; intros Hl; [reflexivity|]. unfold Zsum in *. cbn [map fold_right]. rewrite IHl by (intros k Hk; apply Hl; right; exact Hk). assert (Hj : (j < length b)%nat) by (rewrite HL; apply Hl; left; reflexivity).
      rewrite (nth_indep (map _ _) 0 ((fun x => 1 - x) 0)) by (rewrite map_length; exact Hj). rewrite (map_nth (fun x => 1 - x)). ring. }
    apply G. intros j Hj. apply in_seq in Hj. lia. }
  rewrite ES, Zminus_mod, Hev, HSat. reflexivity.
Qed.

Lemma C69_ldpc_proof :
(* LDPC: encode, modulate, noise of magnitude at most r, soft demodulation; the decoder, given the NEGATED soft outputs, returns the
     coded blocks, whatever the algorithm and the number of iterations *)
  forall (p : LdpcModel.ldpc) (H : LdpcModel.arr2) (c : list C) (g : bool) (md : modem) (msg : list Z) (d r v : R) (a : LdpcDecModel.algorithm) (n_iters : nat),
    LdpcSpec.describes p H -> (2 <= length (LdpcModel.a_rows H) < LdpcModel.a_cols H)%nat -> LdpcSpec.int_invertible H \/ LdpcSpec.unit_lower H \/ LdpcSpec.unit_upper H ->
    LdpcModel.p_gen p = None \/ LdpcModel.p_matrix p = None -> bits msg -> msg <> [] ->
    modem_init c g = Ok md -> NoDup c -> (2 <= length c)%nat ->
    (forall x x', In x c -> In x' c -> x <> x' -> (d <= Cabs (x - x')%C)%R) -> (0 < d)%R -> (0 < v)%R -> (v * ln (INR (2 ^ (num_bits md - 1))) < d * (d - 2 * r))%R ->
    exists (p' : LdpcModel.ldpc) (blocks : list (list Z)), LdpcModel.triang_encode msg p true = (p', Ok blocks) /\ LdpcSpec.coded H msg blocks /\
      ((length (concat blocks) mod num_bits md = 0)%nat ->
       exists s, modulate md (concat blocks) = Ok s /\
         forall ys : list C, Forall2 (fun x y => (Cabs (y - x)%C <= r)%R) s ys ->
           exists llrs, demodulate md ys Soft v = Ok (inr llrs) /\
             (exists out, snd (LdpcDecModel.ldpc_bp_decode LdpcBPSpec.real_ops (map Ropp llrs) p' a n_iters) = Ok out /\ map (fun o => map Z.b2z (fst o)) out = blocks) /\
             (* without the negation, when every check involves an even number of bits: every decoded bit is wrong *)
             ((forall i, (i < length (LdpcModel.a_rows H))%nat -> Zsum (nth i (LdpcModel.a_rows H) []) mod 2 = 0) ->
              exists out, snd (LdpcDecModel.ldpc_bp_decode LdpcBPSpec.real_ops llrs p' a n_iters) = Ok out /\ map (fun o => map Z.b2z (fst o)) out = map (map (fun b => 1 - b)) blocks)).
Proof.
  intros p H c g md msg d r v a n HD Hdim Hinv Hp Hb Hne EI ND Hc Hdist Hd Hv Hm. destruct (LdpcTop.C37_codewords_proof p H HD Hdim Hinv Hp) as (p' & EM & Hall). destruct (Hall msg Hb) as (blocks & Hcod & E1 & _). exists p', blocks. split; [exact E1|]. split; [exact Hcod|]. intros Hmod.
  assert (Ev : LdpcModel.n_vnodes p' = LdpcModel.a_cols H). { pose proof (triang_vnodes msg p true) as T. rewrite E1 in T. cbn [fst] in T. rewrite T. apply HD. }
  destruct Hcod as [(z & Hz & Ecat) HF]. set (N := LdpcModel.a_cols H) in *. assert (HL : Forall (fun b => length b = N) blocks) by (eapply Forall_impl; [|exact HF]; intros b Hbk; apply Hbk).
  assert (Hbl : blocks <> []). { intros ->. cbn in Ecat. destruct msg; [congruence|discriminate]. }
  assert (Hb1 : (1 <= length blocks)%nat) by (destruct blocks; [congruence|cbn; lia]).
  assert (HN : length (concat blocks) = (length blocks * N)%nat) by (apply concat_len; exact HL).
  assert (Hcb : bits (concat blocks)). { unfold bits. apply Forall_forall. intros x Hx. apply in_concat in Hx. destruct Hx as (b & Hb' & Hxb). rewrite Forall_forall in HF. destruct (HF b Hb') as (_ & Hbb & _). unfold bits in Hbb. rewrite Forall_forall in Hbb. exact (Hbb x Hxb). }
  assert (Hcn : concat blocks <> []) by (intros F; rewrite F in HN; cbn in HN; nia).
  destruct (C68_soft_signs_proof c g md (concat blocks) d r v EI ND Hc Hcb Hcn Hmod Hdist Hd Hv Hm) as (s & Es & Hs). exists s. split; [exact Es|]. intros ys HY. destruct (Hs ys HY) as (llrs & El & Ll & Hsg). exists llrs. split; [exact El|].
  destruct (signs_block llrs (concat blocks) Ll Hcb Hsg) as [G1 G2]. assert (HBin : LdpcSpec.binary H) by apply HD.
  assert (DEC : forall l target, length l = length llrs -> map (fun x => Z.b2z (LdpcBPSpec.negative (LdpcBPSpec.clip500 x))) l = concat target -> length target = length blocks -> Forall (fun b => length b = N /\ LdpcSpec.satisfies H b) target ->
    exists out, snd (LdpcDecModel.ldpc_bp_decode LdpcBPSpec.real_ops l p' a n) = Ok out /\ map (fun o => map Z.b2z (fst o)) out = target).
  { intros l target Hl Hmap Ht HFt. assert (CH : map (map (fun x => Z.b2z (LdpcDecModel.n_signbit LdpcBPSpec.real_ops x))) (LdpcModel.chunks N (length blocks) (map (LdpcDecModel.n_clip LdpcBPSpec.real_ops) l)) = target).
    { rewrite <- chunks_map, map_map. cbn [LdpcBPSpec.real_ops LdpcDecModel.n_signbit LdpcDecModel.n_clip]. rewrite <- Ht. etransitivity; [apply f_equal; exact Hmap|]. apply chunks_blocks. eapply Forall_impl; [|exact HFt]. intros b Hbk. apply Hbk. }
    eexists. split.
    - rewrite (LdpcTop.C39_codeword_proof LdpcBPSpec.real_ops p' H a n (length blocks) l HBin EM Ev); [reflexivity|lia|exact Hb1|exact (eq_trans Hl (eq_trans Ll HN))|].
      apply Forall_forall. intros b Hbk. rewrite <- CH in HFt. rewrite Forall_forall in HFt. specialize (HFt (map (fun x => Z.b2z (LdpcDecModel.n_signbit LdpcBPSpec.real_ops x)) b)). apply HFt. apply in_map_iff. exists b. split; [reflexivity|exact Hbk].
    - rewrite map_map. cbn [fst]. etransitivity; [|exact CH]. apply map_ext. intros b. rewrite map_map. reflexivity. }
  split.
  - apply DEC; [apply map_length|rewrite map_map; exact G1|reflexivity|]. eapply Forall_impl; [|exact HF]. intros b Hbk. split; apply Hbk.
  - intros Hev. apply DEC; [reflexivity|rewrite G2; rewrite concat_map; reflexivity|apply map_length|]. apply Forall_forall. intros b Hbk. apply in_map_iff in Hbk. destruct Hbk as (b0 & <- & Hb0). rewrite Forall_forall in HF. destruct (HF b0 Hb0) as (L0 & _ & S0). split; [rewrite map_length; exact L0|]. apply complement_satisfies; assumption.
Qed.

Lemma C69_wifi_default_channel_refuted_proof :
(* with the default (real) fading parameters of SISOFlatChannel, link_performance raises TypeError at the first transmission,
     although Wifi80211 accepts every SISO channel: modulated symbols are complex *)
  forall (garbage : regs) (dr : wifi_draws) (mcs p q m : Z) (psk : bool) (noise_std : option R) (channel : siso) (snr : R) (snrs : list R) (tx_max : nat) (err_min : Z)
         (send_chunk : option Z) (frames : nat) (stop : bool),
    wifi_coding mcs = Ok (p, q) -> wifi_modem mcs = Ok (psk, m) -> siso_init noise_std (C1, false, 0%R) = Ok channel -> (1 <= tx_max)%nat -> (1 <= frames)%nat -> 0 <= err_min ->
    round_chunk (wifi_bits_per_symbol m) p q (match send_chunk with Some c => c | None => err_min end) * Z.of_nat frames < 2 ^ 48 ->
    wifi_link_performance garbage dr mcs channel (snr :: snrs) tx_max err_min send_chunk frames stop = Err TypeError.
Proof.
  intros garbage dr mcs p q m psk nstd channel snr snrs tx_max err_min sc frames stop Ec Em EC Htx Hfr He H48.
  destruct (wifi_ready mcs psk m Em) as (md & c & EM & EI & ND & Hc & Hnb & Hen & Hd0 & Hm2 & Hmp & Hd). assert (Hn1 : (1 <= num_bits md)%nat) by (eapply init_ready; eassumption).
  destruct (C59_generators_proof garbage garbage) as (tr & Etr & _). pose proof (codings_cases _ _ _ Ec) as Hin. destruct (pq_pos p q Hin) as [Hp0 Hpq].
  assert (Hq100 : q <= 100) by (destruct Hin as [H|[H|[H|[H|[]]]]]; injection H as <- <-; lia). destruct (link_rate p q) as [n0 d0] eqn:ER.
  destruct (C60_float_rate_proof p q n0 d0 ltac:(lia) Hq100 ER) as (R1 & R2 & R3).
  assert (n0 = p /\ d0 = q) as [-> ->]. { assert (G : Z.gcd p q = 1) by (destruct Hin as [H|[H|[H|[H|[]]]]]; injection H as <- <-; reflexivity). assert (D1 : (d0 | q)). { apply (Z.gauss d0 n0); [exists p; lia|rewrite Z.gcd_comm; exact R2]. } assert (D2 : (q | d0)). { apply (Z.gauss q p); [exists n0; lia|rewrite Z.gcd_comm; exact G]. } assert (d0 = q) by (apply Z.divide_antisym_nonneg; lia || assumption). subst d0. split; [nia|reflexivity]. }
  unfold wifi_link_performance. rewrite Etr, Ec, EM. cbn [bind fst snd]. rewrite ER. unfold link_performance_full_metrics.
  cbn [num_bits_symbol nb_tx wifi_link]. change (Z.of_nat 1) with 1. rewrite Z.mul_1_r, Hnb. set (chunk := round_chunk _ _ _ _) in *. set (lk := wifi_link _ _ _ _ _).
  assert (HRP : (0 < IZR p / IZR q * Rpower 10 (snr / 10))%R) by (apply Rmult_lt_0_compat; [apply Rdiv_lt_0_compat; apply IZR_lt; lia|apply exp_pos]).
  assert (Ecx : s_complex channel = false). { unfold siso_init, siso_set in EC. destruct (Req_EM_T _ 1); [|discriminate]. injection EC as <-. reflexivity. }
  assert (Hchunk0 : 0 < chunk) by (unfold chunk; apply round_chunk_facts; lia).
  cbn [snr_loop_full]. cbn [lk wifi_link l_set_snr w_channel w_sent siso_do]. unfold snr_dB. destruct (Req_EM_T _ 0) as [F|_]; [lra|]. cbn [bind]. fold lk.
  set (msg := map (fun i => Z.b2z (d_bits dr 0 i)) (seq 0 (Z.to_nat chunk * frames))).
  assert (Hb : bits msg). { apply Forall_forall. intros x Hx. apply in_map_iff in Hx. destruct Hx as (i & <- & _). destruct (d_bits dr 0 i); [right|left]; reflexivity. }
  assert (HLz : Z.of_nat (length msg) = chunk * Z.of_nat frames) by (unfold msg; rewrite map_length, seq_length, Nat2Z.inj_mul, Z2Nat.id by lia; reflexivity).
  destruct (C60_lengths_proof garbage tr mcs p q m 1 (match sc with Some c => c | None => err_min end) psk frames msg Etr Ec Em ltac:(lia) Hfr) as (coded & out & E1 & L1 & E2 & L2 & L3 & _); [rewrite Z.mul_1_r; exact HLz|exact Hb|lia|]. cbv zeta in L3. rewrite Z.mul_1_r in L3.
  assert (Hpd : (p | Z.of_nat (length msg))). { apply (Z.gauss p q); [exists (Z.of_nat (length out)); lia|]. destruct Hin as [H|[H|[H|[H|[]]]]]; injection H as <- <-; reflexivity. }
  assert (Hob : bits out) by (eapply wifi_bits_out; try eassumption; nia). assert (Hne : out <> []) by (intros F; rewrite F in L2; cbn in L2; nia).
  pose proof (modulate_ok md out (init_wf _ _ _ EI) Hn1 Hob Hne) as EMd. set (s := map _ (seq 0 (count md out))) in EMd.
  assert (Hs : s <> []). { intros F. apply (f_equal (@length _)) in F. unfold s in F. rewrite map_length, seq_length in F. cbn in F. unfold count in F. apply Nat.div_small_iff in F; [|lia]. destruct out; [congruence|cbn [length] in F; lia]. }
  destruct tx_max as [|t]; [lia|]. cbn [tx_loop]. change (Zsum (map _ [])) with 0. replace (err_min <? 0) with false by (symmetry; apply Z.ltb_ge; exact He). rewrite andb_false_r.
  unfold transmit. cbn [lk wifi_link l_choice l_modulate l_propagate w_channel w_sent]. fold msg. rewrite E2. cbn [bind]. rewrite EMd. cbn [bind]. cbn [siso_with_std w_channel].
  assert (EPx : forall ch n1 n2 g1 g2, s_complex ch = false -> siso_propagate ch s true n1 n2 g1 g2 = (ch, Err TypeError)). { intros ch n1 n2 g1 g2 Hch. unfold siso_propagate. rewrite Hch. destruct s; [congruence|]. reflexivity. }
  rewrite EPx by exact Ecx. reflexivity.
Qed.

Lemma C70_variance_proof :
(* after set_SNR_lin: noise_std ** 2, which the link model hands to the receiver, against the mean noise power P of C53 *)
  forall (ch : siso) (mi : mimo) (snr rate es : R), (0 < snr)%R -> (0 < rate)%R -> (0 <= es)%R ->
    let P := (es / (rate * snr))%R in
    (exists ch1 sd, siso_do ch (SSnrLin snr rate es) = (ch1, Ok tt) /\ s_std ch1 = Some (Some sd) /\ (sd * sd = (if s_complex ch then 2 else 1) * P)%R) /\
    (exists mi1 sd, mimo_do mi (MSnrLin snr rate es) = (mi1, Ok tt) /\ m_std mi1 = Some (Some sd) /\ (sd * sd = (if m_complex mi then 2 else 1) * (INR (t_nb mi) * P))%R).
Proof.
  intros ch mi snr rate es Hs Hr He P. assert (Hrs : (0 < rate * snr)%R) by (apply Rmult_lt_0_compat; assumption). assert (HP : (0 <= P)%R) by (unfold P; apply Rle_mult_inv_pos; assumption).
  split.
  - cbn [siso_do]. unfold snr_lin. destruct (Req_EM_T _ 0) as [F|_]; [lra|]. unfold np_sqrt. set (x := (_ / (rate * snr))%R). assert (Hx : x = ((if s_complex ch then 2 else 1) * P)%R) by (unfold x, P; change (INR 1) with 1%R; destruct (s_complex ch); field; lra).
    assert (Hx0 : (0 <= x)%R) by (rewrite Hx; destruct (s_complex ch); lra). destruct (Rlt_dec x 0); [lra|]. eexists _, (sqrt x). split; [reflexivity|]. split; [reflexivity|]. rewrite sqrt_sqrt by exact Hx0. exact Hx.
  - cbn [mimo_do]. unfold snr_lin. destruct (Req_EM_T _ 0) as [F|_]; [lra|]. unfold np_sqrt. set (x := (_ / (rate * snr))%R). assert (Hx : x = ((if m_complex mi then 2 else 1) * (INR (t_nb mi) * P))%R) by (unfold x, P; destruct (m_complex mi); field; lra).
    assert (Ht : (0 <= INR (t_nb mi))%R) by apply pos_INR. assert (HtP : (0 <= INR (t_nb mi) * P)%R) by (apply Rmult_le_pos; assumption).
    assert (Hx0 : (0 <= x)%R) by (rewrite Hx; destruct (m_complex mi); lra). destruct (Rlt_dec x 0); [lra|]. eexists _, (sqrt x). split; [reflexivity|]. split; [reflexivity|]. rewrite sqrt_sqrt by exact Hx0. exact Hx.
Qed.

Lemma C70_llr_proof :
(* two points: soft demodulation with that variance returns half of the log-likelihood ratio of the channel when the channel is
     complex (density exp(-|z|^2 / P) up to a constant), twice the ratio when it is real (density exp(-z^2 / (2 P))) *)
  forall (ch : siso) (snr rate es : R) (p0 p1 y : C), (0 < snr)%R -> (0 < rate)%R -> (0 < es)%R ->
    let P := (es / (rate * snr))%R in
    exists ch1 sd md llr, siso_do ch (SSnrLin snr rate es) = (ch1, Ok tt) /\ s_std ch1 = Some (Some sd) /\ modem_init [p0; p1] true = Ok md /\
      demodulate md [y] Soft (sd * sd)%R = Ok (inr [llr]) /\
      (s_complex ch = true -> llr = (1 / 2 * ln (exp (- Cnorm2 (y - p1)%C / P) / exp (- Cnorm2 (y - p0)%C / P)))%R) /\
      (s_complex ch = false -> llr = (2 * ln (exp (- Cnorm2 (y - p1)%C / (2 * P)) / exp (- Cnorm2 (y - p0)%C / (2 * P))))%R).
Proof.
  intros ch snr rate es p0 p1 y Hs Hr He P. assert (Hrs : (0 < rate * snr)%R) by (apply Rmult_lt_0_compat; assumption). assert (HP : (0 < P)%R) by (unfold P; apply Rdiv_lt_0_compat; assumption).
  assert (EX : exists ch1 sd, siso_do ch (SSnrLin snr rate es) = (ch1, Ok tt) /\ s_std ch1 = Some (Some sd) /\ (sd * sd = (if s_complex ch then 2 else 1) * P)%R).
  { cbn [siso_do]. unfold snr_lin. destruct (Req_EM_T _ 0) as [F|_]; [lra|]. unfold np_sqrt. set (x := (_ / (rate * snr))%R). assert (Hx : x = ((if s_complex ch then 2 else 1) * P)%R) by (unfold x, P; change (INR 1) with 1%R; destruct (s_complex ch); field; lra).
    assert (Hx0 : (0 <= x)%R) by (rewrite Hx; destruct (s_complex ch); lra). destruct (Rlt_dec x 0); [lra|]. eexists _, (sqrt x). split; [reflexivity|]. split; [reflexivity|]. rewrite sqrt_sqrt by exact Hx0. exact Hx. }
  destruct EX as (ch1 & sd & E1 & E2 & E3). assert (Hv : (0 < sd * sd)%R) by (rewrite E3; destruct (s_complex ch); lra). destruct (C43_two_points_proof p0 p1 y (sd * sd)%R Hv) as (md & E4 & E5).
  exists ch1, sd, md. eexists. split; [exact E1|]. split; [exact E2|]. split; [exact E4|]. split; [exact E5|]. rewrite E3.
  assert (LN : forall a b, ln (exp a / exp b) = (a - b)%R) by (intros a b; unfold Rdiv; rewrite <- exp_Ropp, <- exp_plus, ln_exp; ring).
  split; intros ->; rewrite LN; field; lra.
Qed.

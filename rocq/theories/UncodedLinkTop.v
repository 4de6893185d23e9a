(* Proofs of the property C76: uncoded links. *)
From Coq Require Import Reals Lra Permutation.
From Verif Require Import Base UtilModel UtilProofs LinksModel LinksSpec LinksProofs LinksTop
  Cplx ModemModel ModemSpec ModemProofs ModemNoise ModemTop MimoModel MimoSpec MimoProofs MimoTop ChannelModel ChannelSpec ChannelHist ChainTop UncodedLinkModel UncodedLinkSpec.
Local Open Scope Z_scope.

(* ---------------------------------------------------------------- a link that never makes an error: link_performance *)
Section ErrorFree2.
Context {W Snr Sy Y G V : Type} (m : link W Snr Sy Y G V) (Inv : W -> Prop) (chunk : Z).
Hypothesis Hchunk : 0 < chunk.
Hypothesis sends : forall w, Inv w -> exists msg w', transmit m w (Z.to_nat chunk) = Ok (msg, msg, w') /\ length msg = Z.to_nat chunk /\ bits msg /\ Inv w'.
Lemma send_loop_zero : forall send_max err_min fuel n sent w, 1 <= err_min -> Inv w -> (n < fuel)%nat -> sent + chunk * Z.of_nat n >= send_max -> (n <> 0%nat -> sent + chunk * (Z.of_nat n - 1) < send_max) ->
  exists w', send_loop fuel m send_max err_min chunk sent 0 w = Ok (0, sent + chunk * Z.of_nat n, w').
Proof.
  intros send_max err_min fuel. induction fuel as [|f IH]; intros n sent w He HI Hf H1 H2; [lia|]. cbn [send_loop].
  destruct (Z.ltb_spec sent send_max) as [Hlt|Hge].
  - replace (0 <? err_min) with true by (symmetry; apply Z.ltb_lt; lia). cbn [andb]. destruct (sends w HI) as (msg & w1 & Et & Hl & Hb & HI1). rewrite Et. cbn [bind]. rewrite firstn_all. rewrite (xor_sum_bits msg msg Hb Hb eq_refl). rewrite bit_errors_same. cbn [bind].
    destruct n as [|n]; [exfalso; change (Z.of_nat 0) with 0 in H1; lia|]. change (0 + 0) with 0. destruct (IH n (sent + chunk) w1 He HI1 ltac:(lia)) as (w' & E).
    + rewrite Nat2Z.inj_succ in H1. lia.
    + intros Hn. specialize (H2 ltac:(discriminate)). rewrite Nat2Z.inj_succ in H2. lia.
    + exists w'. rewrite E. do 3 f_equal. rewrite Nat2Z.inj_succ. lia.
  - cbn [andb]. destruct n as [|n]; [exists w; do 3 f_equal; change (Z.of_nat 0) with 0; lia|]. exfalso. specialize (H2 ltac:(discriminate)). rewrite Nat2Z.inj_succ in H2. nia.
Qed.
Lemma perf_zero : forall fuel send_max err_min w s snrs w1, 1 <= err_min -> 1 <= send_max -> (Z.to_nat (bits_sent send_max chunk / chunk) < fuel)%nat -> l_set_snr m w s = Ok w1 -> Inv w1 ->
  snr_loop fuel m send_max err_min chunk w (s :: snrs) = Ok (Some (0, bits_sent send_max chunk) :: repeat None (length snrs)).
Proof.
  intros fuel send_max err_min w s snrs w1 He Hs Hf Es HI. cbn [snr_loop]. rewrite Es. cbn [bind]. unfold bits_sent in *. set (k := (send_max + chunk - 1) / chunk) in *. rewrite Z.mul_comm, Z.div_mul in Hf by lia.
  pose proof (Z.div_mod (send_max + chunk - 1) chunk ltac:(lia)) as D. pose proof (Z.mod_pos_bound (send_max + chunk - 1) chunk Hchunk) as B. fold k in D.
  assert (Hk : 1 <= k) by nia.
  destruct (send_loop_zero send_max err_min fuel (Z.to_nat k) 0 w1 He HI Hf) as (w' & E); [rewrite Z2Nat.id by lia; lia|rewrite Z2Nat.id by lia; lia|].
  rewrite E. cbn [bind]. rewrite Z2Nat.id by lia. cbn [Z.add]. replace (chunk * k =? 0) with false by (symmetry; apply Z.eqb_neq; nia). replace (0 <? err_min) with true by (symmetry; apply Z.ltb_lt; lia). reflexivity.
Qed.
End ErrorFree2.

(* ---------------------------------------------------------------- modulation vector by vector *)
Lemma energy_nonneg : forall c g md, modem_init c g = Ok md -> (0 <= energy md)%R.
Proof.
  intros c g md E. rewrite (C44_energy_proof c g md E). destruct (length c) eqn:El; [destruct c; [|discriminate]; cbn; unfold Rdiv; rewrite Rmult_0_l; apply Rle_refl|].
  apply Rmult_le_pos; [|left; apply Rinv_0_lt_compat, lt_0_INR; lia]. apply Rsum_nonneg. intros x Hx. apply in_map_iff in Hx. destruct Hx as (z & <- & _). apply Cnorm2_nonneg.
Qed.
Lemma divider_one : forall b, 0 < b -> divider b 1 1 = b.
Proof. intros b Hb. unfold divider. rewrite Z.mul_1_r, Z.gcd_1_l, Z.div_1_r. reflexivity. Qed.
Lemma slice_slice : forall (l : list Z) a n k b, (k * b + b <= n)%nat -> slice (slice l a (a + n)) (k * b) (k * b + b) = slice l (a + k * b) (a + k * b + b).
Proof.
  intros l a n k b H. unfold slice. replace (k * b + b - k * b)%nat with b by lia. replace (a + n - a)%nat with n by lia. replace (a + k * b + b - (a + k * b))%nat with b by lia.
  rewrite skipn_firstn_comm, firstn_firstn. replace (Nat.min b (n - k * b)) with b by lia. f_equal. clear H. revert l. induction a as [|a IH]; intros l; [reflexivity|]. destruct l as [|x l]; [cbn [skipn Nat.add]; destruct (k * b)%nat; reflexivity|]. cbn [skipn Nat.add]. apply IH.
Qed.
Lemma modulate_vector : forall md bs n tx a, wf md -> (1 <= num_bits md)%nat -> bits bs -> (1 <= tx)%nat -> length bs = (n * (tx * num_bits md))%nat -> (a < n)%nat ->
  exists s, modulate md bs = Ok s /\ length s = (n * tx)%nat /\ modulate md (slice bs (a * (tx * num_bits md)) (a * (tx * num_bits md) + tx * num_bits md)) = Ok (map (fun k => nth (a * tx + k) s C0) (seq 0 tx)) /\
    Forall (fun p => In p (points md)) s.
Proof.
  intros md bs n tx a HW Hb Hbs Ht HL Ha. set (b := num_bits md) in *. assert (P1 : (1 <= tx * b)%nat) by nia. assert (P2 : (a * (tx * b) + tx * b <= n * (tx * b))%nat) by nia. assert (Hne : bs <> []) by (intros ->; cbn [length] in HL; lia). eexists. split; [apply modulate_ok; assumption|].
  assert (HC : count md bs = (n * tx)%nat). { unfold count. fold b. symmetry. apply (Nat.div_unique _ _ _ (b - 1)); nia. } rewrite HC. split; [rewrite map_length; apply seq_length|].
  set (sl := slice bs (a * (tx * b)) (a * (tx * b) + tx * b)). assert (Lsl : length sl = (tx * b)%nat) by (unfold sl; rewrite slice_length by lia; lia).
  split.
  - rewrite modulate_ok; [|assumption|assumption|apply bits_slice; exact Hbs|intros F; rewrite F in Lsl; cbn [length] in Lsl; lia]. f_equal.
    assert (HC' : count md sl = tx). { unfold count. fold b. rewrite Lsl. symmetry. apply (Nat.div_unique _ _ _ (b - 1)); nia. } rewrite HC'.
    apply map_ext_in. intros k Hk. apply in_seq in Hk. rewrite nth_map_seq by nia. f_equal. unfold label, group. fold b. do 2 f_equal. unfold sl. rewrite slice_slice by nia. f_equal; nia.
  - apply Forall_forall. intros x Hx. apply in_map_iff in Hx. destruct Hx as (k & <- & _). apply nth_In. apply label_range; assumption.
Qed.
Lemma concat_slices : forall (l : list Z) n w, length l = (n * w)%nat -> concat (map (fun a => slice l (a * w) (a * w + w)) (seq 0 n)) = l.
Proof.
  intros l n w. revert l. induction n as [|n IH]; intros l HL; [destruct l; [reflexivity|discriminate]|]. rewrite seq_S, map_app, concat_app. cbn [map concat Nat.add]. rewrite app_nil_r.
  transitivity (firstn (n * w) l ++ skipn (n * w) l); [|apply firstn_skipn]. f_equal.
  - rewrite <- (IH (firstn (n * w) l)) by (rewrite firstn_length; nia). f_equal. apply map_ext_in. intros a Ha. apply in_seq in Ha. unfold slice. rewrite skipn_firstn_comm, firstn_firstn. f_equal. nia.
  - unfold slice. apply firstn_all2. rewrite skipn_length. nia.
Qed.
Lemma drawn_is : forall dr sqrtm ch ch' t a, t_nb ch' = t_nb ch -> r_nb ch' = r_nb ch -> m_fading ch' = m_fading ch -> m_complex ch' = true ->
  gains_of sqrtm ch' (u_g1 dr t) (u_g2 dr t) a = drawn_matrix dr sqrtm ch t a.
Proof. intros dr sqrtm ch ch' t a A B D E. unfold gains_of, drawn_matrix, gain_matrix. rewrite A, B, D, E. reflexivity. Qed.

(* ---------------------------------------------------------------- one transmission on a MIMO channel *)
Section Sends.
Variables (dr : mimo_draws) (sqrtm : list (list C) -> list (list C) * bool) (c : list C) (g : bool) (md : modem) (detect : nat -> list C -> list (list C) -> res (list C)) (empty : nat -> Z) (ch : mimo) (s : R).
Let tx := t_nb ch.
Let rx := r_nb ch.
Let H t a := drawn_matrix dr sqrtm ch t a.
Let lk := mimo_link dr sqrtm md detect empty tx.
Hypothesis EI : modem_init c g = Ok md.
Hypothesis ND : NoDup c.
Hypothesis Hc : (2 <= length c)%nat.
Hypothesis Ht : (1 <= tx)%nat.
Hypothesis Hnan : m_nan (f_mean (m_fading ch)) = false.
Hypothesis Hdet : forall t a x, vector_of c tx x -> detect (S t) (map (fun i => (apply_row (nth i (H t a) []) x + drawn_noise dr s t a i)%C) (seq 0 rx)) (H t a) = Ok x.
Definition mInv (w : mimo_world) : Prop :=
  t_nb (mw_channel w) = tx /\ r_nb (mw_channel w) = rx /\ m_fading (mw_channel w) = m_fading ch /\ m_complex (mw_channel w) = true /\ m_std (mw_channel w) = Some (Some s).
Lemma mimo_sends : forall N w, (0 < N)%nat -> mInv w -> exists msg w', transmit lk w (N * (tx * num_bits md)) = Ok (msg, msg, w') /\ length msg = (N * (tx * num_bits md))%nat /\ bits msg /\ mInv w'.
Proof.
  intros N w HN (I1 & I2 & I3 & I4 & I5). destruct (init_ready _ _ _ EI ND Hc) as (HW & NDp & Hb1 & HP). set (b := num_bits md) in *. set (t := mw_sent w).
  set (msg := map (fun i => Z.b2z (u_bits dr t i)) (seq 0 (N * (tx * b)))).
  assert (Hb : bits msg). { apply Forall_forall. intros x Hx. apply in_map_iff in Hx. destruct Hx as (i & <- & _). destruct (u_bits dr t i); [right|left]; reflexivity. }
  assert (HL : length msg = (N * (tx * b))%nat) by (unfold msg; rewrite map_length, seq_length; reflexivity).
  destruct (modulate_vector md msg N tx 0 HW Hb1 Hb Ht HL HN) as (sy & Em & Ls & _ & Hsy).
  assert (Hv : forall a, (a < N)%nat -> modulate md (slice msg (a * (tx * b)) (a * (tx * b) + tx * b)) = Ok (vect tx sy a)).
  { intros a Ha. destruct (modulate_vector md msg N tx a HW Hb1 Hb Ht HL Ha) as (sy' & Em' & _ & Ev & _). rewrite Em in Em'. injection Em' as <-. exact Ev. }
  assert (Hne : sy <> []) by (intros ->; cbn in Ls; nia).
  destruct (propagate_ok sqrtm (mw_channel w) sy true (u_n1 dr t) (u_n2 dr t) (u_g1 dr t) (u_g2 dr t) s Hne (fun _ => I4) ltac:(rewrite I1; exact Ht) I5) as (ch' & EP & PG & _ & _ & J1 & J2 & J3 & J4 & J5); [rewrite I4; discriminate|rewrite I3; exact Hnan|].
  assert (Enb : ((length sy + t_nb (mw_channel w) - 1) / t_nb (mw_channel w) = N)%nat) by (rewrite I1, Ls; symmetry; apply (Nat.div_unique _ _ _ (tx - 1)); nia). rewrite Enb in EP, PG. rewrite I2, I4 in EP.
  assert (EG : forall a, gains_of sqrtm (mw_channel w) (u_g1 dr t) (u_g2 dr t) a = H t a) by (intros a; apply drawn_is; assumption).
  set (out := map (fun a => map (fun i => (apply_row (nth i (H t a) []) (vect tx sy a) + drawn_noise dr s t a i)%C) (seq 0 rx)) (seq 0 N)).
  assert (EO : map (fun a => map (fun i => (nth i (unnoisy_of sqrtm (mw_channel w) sy (u_g1 dr t) (u_g2 dr t) a) C0 + noise true s (u_n1 dr t a i) (u_n2 dr t a i))%C) (seq 0 rx)) (seq 0 N) = out).
  { apply map_ext. intros a. apply map_ext_in. intros i Hi. apply in_seq in Hi. unfold unnoisy_of. rewrite I2, nth_map_seq by lia. rewrite EG, I1. f_equal. unfold noise, drawn_noise, Cscale. cbn [re im]. f_equal; field. }
  rewrite EO in EP. set (gains := map (H t) (seq 0 N)). assert (EGs : map (gains_of sqrtm (mw_channel w) (u_g1 dr t) (u_g2 dr t)) (seq 0 N) = gains) by (apply map_ext; exact EG). rewrite EGs in PG.
  set (w' := {| mw_channel := ch'; mw_sent := S t |}). exists msg, w'. split; [|split; [exact HL|split; [exact Hb|]]].
  - assert (T1 : l_choice lk w (N * (tx * b)) = (msg, w)) by reflexivity.
    assert (T2 : l_modulate lk w msg = Ok (sy, w)) by (cbn [lk mimo_link l_modulate]; rewrite Em; reflexivity).
    assert (T3 : l_propagate lk w sy = Ok (out, gains, w')) by (cbn [lk mimo_link l_propagate]; fold t; rewrite EP, PG; reflexivity).
    destruct (C56_transmission_proof _ _ _ _ _ _ lk w w w w' (N * (tx * b))%nat msg sy out gains T1 T2 T3) as (_ & X). cbn [lk mimo_link is_mimo nb_tx num_bits_symbol l_received_len l_receive1 l_decoder] in X. fold b in X.
    assert (Lo : length out = N) by (unfold out; rewrite map_length; apply seq_length). assert (Lg : length gains = N) by (unfold gains; rewrite map_length; apply seq_length).
    rewrite Lo, Nat2Z.id, HL in X. specialize (X eq_refl Lg ltac:(lia) (fun a => slice msg (a * (tx * b)) (a * (tx * b) + tx * b))). rewrite X.
    + replace (N * (tx * b) - tx * b * N)%nat with 0%nat by lia. cbn [seq map bind fst snd]. rewrite app_nil_r, concat_slices by exact HL. reflexivity.
    + intros i y h Hy Hh. assert (Hi : (i < N)%nat) by (rewrite <- Lo; apply nth_error_Some; congruence). split; [|rewrite slice_length by nia; lia].
      assert (Ey : y = map (fun j => (apply_row (nth j (H t i) []) (vect tx sy i) + drawn_noise dr s t i j)%C) (seq 0 rx)). { apply (nth_error_nth _ _ []) in Hy. rewrite <- Hy. unfold out. rewrite nth_map_seq by exact Hi. reflexivity. }
      assert (Eh : h = H t i). { apply (nth_error_nth _ _ []) in Hh. rewrite <- Hh. unfold gains. rewrite nth_map_seq by exact Hi. reflexivity. } subst y h.
      assert (HV : vector_of c tx (vect tx sy i)). { split; [unfold vect; rewrite map_length; apply seq_length|]. unfold vect. apply Forall_forall. intros p Hp. apply in_map_iff in Hp. destruct Hp as (k & <- & Hk). apply in_seq in Hk. rewrite Forall_forall in Hsy. eapply Permutation_in; [exact HP|]. apply Hsy, nth_In. nia. }
      cbn [w' mw_sent]. rewrite (Hdet t i _ HV). cbn [bind]. set (sl := slice msg (i * (tx * b)) (i * (tx * b) + tx * b)). assert (Lsl : length sl = (tx * b)%nat) by (unfold sl; rewrite slice_length by nia; lia).
      destruct (C42_round_trip_proof c g md sl 0%R EI ND Hc) as (s' & E1 & E2 & _); [apply bits_slice; exact Hb|intros F; rewrite F in Lsl; cbn in Lsl; nia|]. fold b in E2. rewrite Lsl, Nat.mod_mul in E2 by lia. specialize (E2 eq_refl).
      pose proof (Hv i Hi) as E3. fold sl in E3. rewrite E1 in E3. injection E3 as ->. rewrite E2. reflexivity.
  - unfold mInv. cbn [w' mw_channel]. rewrite J1, J2, J3, J4, J5. auto.
Qed.
End Sends.

Lemma C76_any_detector_proof :
(* a MIMO link without code and a detector that, for every drawn channel matrix and noise vector, finds the sent vector: no errors,
     in both simulation functions *)
  forall (dr : mimo_draws) sqrtm (c : list C) (g : bool) (md : modem) detect empty (ch : mimo) (snr : R) (snrs : list R) (tx_max ncps fuel : nat) (send_max err_min : Z) (send_chunk : option Z) (stop : bool),
    modem_init c g = Ok md -> NoDup c -> (2 <= length c)%nat -> (1 <= t_nb ch)%nat -> m_complex ch = true -> m_nan (f_mean (m_fading ch)) = false -> 1 <= err_min -> (1 <= ncps)%nat ->
    let s := sqrt (2 * INR (t_nb ch) * energy md / Rpower 10 (snr / 10)) in
    let chunk := round_chunk (Z.of_nat (num_bits md) * Z.of_nat (t_nb ch)) 1 1 (match send_chunk with Some n => n | None => err_min end) in
    (forall t a x, vector_of c (t_nb ch) x -> let H := drawn_matrix dr sqrtm ch t a in
       detect (S t) (map (fun i => (apply_row (nth i H []) x + drawn_noise dr s t a i)%C) (seq 0 (r_nb ch))) H = Ok x) ->
    mimo_full_metrics dr sqrtm md detect empty ch (snr :: snrs) tx_max err_min send_chunk ncps stop =
      Ok ({| BER := Some (0, Z.of_nat tx_max * chunk); BE := repeat 0 tx_max; CE := repeat 0 tx_max; NC := repeat (Z.of_nat ncps) tx_max |} ::
          repeat {| BER := None; BE := repeat 0 tx_max; CE := repeat 0 tx_max; NC := repeat 0 tx_max |} (length snrs)) /\
    (1 <= send_max -> (Z.to_nat (bits_sent send_max chunk / chunk) < fuel)%nat ->
     mimo_performance dr sqrtm md detect empty ch fuel (snr :: snrs) send_max err_min send_chunk = Ok (Some (0, bits_sent send_max chunk) :: repeat None (length snrs))).
Proof.
  intros dr sqrtm c g md detect empty ch snr snrs tx_max ncps fuel send_max err_min sc stop EI ND Hc Ht Hcx Hnan He Hn s chunk Hdet.
  destruct (init_ready _ _ _ EI ND Hc) as (HW & NDp & Hb1 & HP). pose proof (energy_nonneg _ _ _ EI) as HE. assert (HPw : (0 < Rpower 10 (snr / 10))%R) by apply exp_pos.
  set (lk := mimo_link dr sqrtm md detect empty (t_nb ch)). set (w0 := {| mw_channel := ch; mw_sent := 0 |}). set (w1 := {| mw_channel := mimo_with_std ch (Some (Some s)); mw_sent := 0 |}).
  assert (ES : l_set_snr lk w0 snr = Ok w1).
  { cbn [lk mimo_link l_set_snr w0 mw_channel mw_sent mimo_do]. unfold snr_dB. destruct (Req_EM_T _ 0) as [F|_]; [lra|]. rewrite Hcx. unfold np_sqrt.
    replace ((1 + 1) * INR (t_nb ch) * energy md / (1 * Rpower 10 (snr / 10)))%R with (2 * INR (t_nb ch) * energy md / Rpower 10 (snr / 10))%R by (rewrite Rmult_1_l; f_equal; ring).
    destruct (Rlt_dec _ 0) as [F|_]; [|reflexivity]. exfalso. apply (Rlt_not_le _ _ F). apply Rmult_le_pos; [|left; apply Rinv_0_lt_compat; exact HPw]. apply Rmult_le_pos; [|exact HE]. apply Rmult_le_pos; [lra|apply pos_INR]. }
  assert (HI : mInv ch s w1) by (unfold mInv; cbn [w1 mw_channel mimo_with_std t_nb r_nb m_fading m_complex m_std]; auto).
  assert (Hbt : 0 < Z.of_nat (num_bits md) * Z.of_nat (t_nb ch)) by nia.
  destruct (round_chunk_facts (Z.of_nat (num_bits md) * Z.of_nat (t_nb ch)) 1 1 Hbt ltac:(lia) (match sc with Some n => n | None => err_min end)) as (Hch & (k & Hk) & _). fold chunk in Hch, Hk. cbv zeta in Hk. rewrite divider_one in Hk by exact Hbt.
  assert (Hk0 : 0 < k) by nia. assert (EN : Z.to_nat chunk = (Z.to_nat k * (t_nb ch * num_bits md))%nat) by (rewrite Hk, !Z2Nat.inj_mul by lia; rewrite !Nat2Z.id; lia).
  pose proof (mimo_sends dr sqrtm c g md detect empty ch s EI ND Hc Ht Hnan Hdet) as SE. fold lk in SE.
  unfold mimo_full_metrics, mimo_performance. fold lk w0. split.
  - unfold link_performance_full_metrics. cbn [lk mimo_link num_bits_symbol nb_tx]. fold lk chunk. rewrite <- (Z2Nat.id chunk) at 2 by lia.
    apply (full_zero lk (mInv ch s) (Z.to_nat chunk) ncps) with (w1 := w1); [|exact He|exact ES|exact HI].
    intros w Iw. replace (Z.to_nat chunk * ncps)%nat with (Z.to_nat k * ncps * (t_nb ch * num_bits md))%nat by (rewrite EN; lia). apply SE; [nia|exact Iw].
  - intros Hs Hf. unfold link_performance. cbn [lk mimo_link num_bits_symbol nb_tx]. fold lk chunk.
    apply (perf_zero lk (mInv ch s) chunk Hch) with (w1 := w1); [|exact He|exact Hs|exact Hf|exact ES|exact HI]. intros w Iw. rewrite EN. apply SE; [lia|exact Iw].
Qed.

Lemma drawn_columns : forall dr sqrtm ch t a, columns (t_nb ch) (drawn_matrix dr sqrtm ch t a) /\ length (drawn_matrix dr sqrtm ch t a) = r_nb ch.
Proof.
  intros. unfold drawn_matrix. cbv zeta. split; [|rewrite map_length; apply seq_length]. apply Forall_forall. intros row Hr. apply in_map_iff in Hr. destruct Hr as (i & <- & _). rewrite map_length. apply seq_length.
Qed.
Lemma noisy_dist : forall dr sqrtm ch s t a x, let H := drawn_matrix dr sqrtm ch t a in
  sq_dist (map (fun i => (apply_row (nth i H []) x + drawn_noise dr s t a i)%C) (seq 0 (r_nb ch))) H x = noise_energy dr ch s t a.
Proof.
  intros dr sqrtm ch s t a x H. unfold sq_dist, noise_energy. replace (length H) with (r_nb ch) by (symmetry; apply (proj2 (drawn_columns dr sqrtm ch t a))). apply Rsum_map_ext. intros i Hi. apply in_seq in Hi. rewrite nth_map_seq by lia. f_equal. ring.
Qed.

Lemma C76_ml_proof :
(* the maximum-likelihood receiver: every noise vector shorter than half the distance between any two noise-free signals *)
  forall (dr : mimo_draws) sqrtm (c : list C) (g : bool) (md : modem) empty (ch : mimo) (snr : R) (snrs : list R) (tx_max ncps fuel : nat) (send_max err_min : Z) (send_chunk : option Z) (stop : bool),
    modem_init c g = Ok md -> NoDup c -> (2 <= length c)%nat -> (1 <= t_nb ch)%nat -> m_complex ch = true -> m_nan (f_mean (m_fading ch)) = false -> 1 <= err_min -> (1 <= ncps)%nat ->
    let s := sqrt (2 * INR (t_nb ch) * energy md / Rpower 10 (snr / 10)) in
    let chunk := round_chunk (Z.of_nat (num_bits md) * Z.of_nat (t_nb ch)) 1 1 (match send_chunk with Some n => n | None => err_min end) in
    (forall t a, clear_ml (noise_energy dr ch s t a) (drawn_matrix dr sqrtm ch t a) c (t_nb ch)) ->
    let receiver := ml_detect md (t_nb ch) in
    mimo_full_metrics dr sqrtm md receiver empty ch (snr :: snrs) tx_max err_min send_chunk ncps stop =
      Ok ({| BER := Some (0, Z.of_nat tx_max * chunk); BE := repeat 0 tx_max; CE := repeat 0 tx_max; NC := repeat (Z.of_nat ncps) tx_max |} ::
          repeat {| BER := None; BE := repeat 0 tx_max; CE := repeat 0 tx_max; NC := repeat 0 tx_max |} (length snrs)) /\
    (1 <= send_max -> (Z.to_nat (bits_sent send_max chunk / chunk) < fuel)%nat ->
     mimo_performance dr sqrtm md receiver empty ch fuel (snr :: snrs) send_max err_min send_chunk = Ok (Some (0, bits_sent send_max chunk) :: repeat None (length snrs))).
Proof.
  intros dr sqrtm c g md empty ch snr snrs tx_max ncps fuel send_max err_min sc stop EI ND Hc Ht Hcx Hnan He Hn s chunk Hclear receiver.
  apply (C76_any_detector_proof dr sqrtm c g md); try assumption. intros t a x Hx H. destruct (drawn_columns dr sqrtm ch t a) as [HC HL]. fold H in HC, HL. pose proof (init_perm _ _ _ EI) as HP.
  assert (VP : forall z, vector_of (points md) (t_nb ch) z -> vector_of c (t_nb ch) z). { intros z [Lz Fz]. split; [exact Lz|]. eapply Forall_impl; [|exact Fz]. intros p. apply Permutation_in. exact HP. }
  assert (VP' : vector_of (points md) (t_nb ch) x). { destruct Hx as [Lz Fz]. split; [exact Lz|]. eapply Forall_impl; [|exact Fz]. intros p. apply Permutation_in. symmetry. exact HP. }
  unfold receiver, ml_detect. eapply C73_ml_proof; [exact HC|rewrite map_length, seq_length, HL; reflexivity|exact VP'| |].
  - intros x' Hx' Hne. unfold H at 1. rewrite noisy_dist. apply Hclear; auto.
  - intros F. apply Permutation_length in HP. rewrite F in HP. cbn in HP. lia.
Qed.

Lemma C76_kbest_proof :
(* the K-best receiver: under the same condition if K is at least m^(nb_tx - 1); for any K >= 1 if every noise vector is shorter than
     half of |H v| for every v whose last non-zero entry is a difference of two points *)
  forall (dr : mimo_draws) sqrtm (c : list C) (g : bool) (md : modem) argsort qr garbage (K : nat) empty (ch : mimo) (snr : R) (snrs : list R) (tx_max ncps fuel : nat) (send_max err_min : Z) (send_chunk : option Z) (stop : bool),
    modem_init c g = Ok md -> NoDup c -> (2 <= length c)%nat -> (1 <= t_nb ch <= r_nb ch)%nat -> m_complex ch = true -> m_nan (f_mean (m_fading ch)) = false -> 1 <= err_min -> (1 <= ncps)%nat ->
    sorting argsort -> (forall t, length (garbage t) = t_nb ch) -> (forall t a, let H := drawn_matrix dr sqrtm ch t a in is_qr H (t_nb ch) (fst (qr H)) (snd (qr H))) ->
    let s := sqrt (2 * INR (t_nb ch) * energy md / Rpower 10 (snr / 10)) in
    let chunk := round_chunk (Z.of_nat (num_bits md) * Z.of_nat (t_nb ch)) 1 1 (match send_chunk with Some n => n | None => err_min end) in
    ((length c ^ (t_nb ch - 1) <= K)%nat /\ (forall t a, clear_ml (noise_energy dr ch s t a) (drawn_matrix dr sqrtm ch t a) c (t_nb ch)) \/
     (1 <= K)%nat /\ (forall t a, clear_successive (noise_energy dr ch s t a) (drawn_matrix dr sqrtm ch t a) c (t_nb ch))) ->
    let receiver := kbest_detect argsort qr garbage md (t_nb ch) K in
    mimo_full_metrics dr sqrtm md receiver empty ch (snr :: snrs) tx_max err_min send_chunk ncps stop =
      Ok ({| BER := Some (0, Z.of_nat tx_max * chunk); BE := repeat 0 tx_max; CE := repeat 0 tx_max; NC := repeat (Z.of_nat ncps) tx_max |} ::
          repeat {| BER := None; BE := repeat 0 tx_max; CE := repeat 0 tx_max; NC := repeat 0 tx_max |} (length snrs)) /\
    (1 <= send_max -> (Z.to_nat (bits_sent send_max chunk / chunk) < fuel)%nat ->
     mimo_performance dr sqrtm md receiver empty ch fuel (snr :: snrs) send_max err_min send_chunk = Ok (Some (0, bits_sent send_max chunk) :: repeat None (length snrs))).
Proof.
  intros dr sqrtm c g md argsort qr garbage K empty ch snr snrs tx_max ncps fuel send_max err_min sc stop EI ND Hc Ht Hcx Hnan He Hn HS Hg Hqr s chunk Hclear receiver.
  apply (C76_any_detector_proof dr sqrtm c g md); try assumption; [lia|]. intros t a x Hx H. destruct (drawn_columns dr sqrtm ch t a) as [HC HL]. fold H in HC, HL. pose proof (init_perm _ _ _ EI) as HP.
  assert (VP : forall z, vector_of (points md) (t_nb ch) z -> vector_of c (t_nb ch) z). { intros z [Lz Fz]. split; [exact Lz|]. eapply Forall_impl; [|exact Fz]. intros p. apply Permutation_in. exact HP. }
  assert (VP' : vector_of (points md) (t_nb ch) x). { destruct Hx as [Lz Fz]. split; [exact Lz|]. eapply Forall_impl; [|exact Fz]. intros p. apply Permutation_in. symmetry. exact HP. }
  assert (Hne : points md <> []). { intros F. apply Permutation_length in HP. rewrite F in HP. cbn in HP. lia. }
  set (y := map _ (seq 0 (r_nb ch))). assert (Ly : length y = length H) by (unfold y; rewrite map_length, seq_length, HL; reflexivity). assert (Ey : sq_dist y H x = noise_energy dr ch s t a) by apply noisy_dist.
  unfold receiver, kbest_detect. assert (E : kbest argsort (garbage (S t)) y H (fst (qr H)) (snd (qr H)) (t_nb ch) (points md) K 0%R Hard (fun _ => Err TypeError) = Ok (KHard x)); [|rewrite E; reflexivity].
  destruct Hclear as [[HK Hcl]|[HK Hcl]].
  - destruct (C73_ml_proof y H (t_nb ch) (points md) x HC Ly VP') as (_ & X & _); [|exact Hne|].
    + intros x' Hx' Hd. rewrite Ey. apply Hcl; auto.
    + apply X; [exact HS|apply Hg|apply Hqr|lia|rewrite (Permutation_length HP); exact HK].
  - apply C73_any_width_proof; [exact HS|apply Hg|apply Hqr|lia|exact Ly|exact VP'| |exact Hne|exact HK].
    intros v j p p' Lv Hj Hp Hp' Hd Hv Hz. rewrite Ey. apply (Hcl t a v j p p'); try assumption; eapply Permutation_in; eassumption.
Qed.

Lemma C76_siso_proof :
(* a SISO link without code and without fading, hard decisions: every noise value smaller in magnitude than half the distance of the
     constellation *)
  forall (dr : siso_draws) (c : list C) (g : bool) (md : modem) (noise_std : option R) (channel : siso) (d snr : R) (snrs : list R) (tx_max ncps fuel : nat) (send_max err_min : Z) (send_chunk : option Z) (stop : bool),
    modem_init c g = Ok md -> NoDup c -> (2 <= length c)%nat -> siso_init noise_std (C1, true, 0%R) = Ok channel -> 1 <= err_min -> (1 <= ncps)%nat ->
    (forall p p', In p c -> In p' c -> p <> p' -> (d <= Cabs (p - p')%C)%R) ->
    let s := sqrt (2 * energy md / Rpower 10 (snr / 10)) in
    let chunk := round_chunk (Z.of_nat (num_bits md)) 1 1 (match send_chunk with Some n => n | None => err_min end) in
    (forall t i, (s * Cabs (mkC (b_n1 dr t i) (b_n2 dr t i)) < d)%R) ->
    siso_full_metrics dr md channel (snr :: snrs) tx_max err_min send_chunk ncps stop =
      Ok ({| BER := Some (0, Z.of_nat tx_max * chunk); BE := repeat 0 tx_max; CE := repeat 0 tx_max; NC := repeat (Z.of_nat ncps) tx_max |} ::
          repeat {| BER := None; BE := repeat 0 tx_max; CE := repeat 0 tx_max; NC := repeat 0 tx_max |} (length snrs)) /\
    (1 <= send_max -> (Z.to_nat (bits_sent send_max chunk / chunk) < fuel)%nat ->
     siso_performance dr md channel fuel (snr :: snrs) send_max err_min send_chunk = Ok (Some (0, bits_sent send_max chunk) :: repeat None (length snrs))).
Proof.
  intros dr c g md nstd channel d snr snrs tx_max ncps fuel send_max err_min sc stop EI ND Hc EC He Hn Hd s chunk Hnoise.
  destruct (init_ready _ _ _ EI ND Hc) as (HW & NDp & Hb1 & HP). pose proof (energy_nonneg _ _ _ EI) as HE. assert (HPw : (0 < Rpower 10 (snr / 10))%R) by apply exp_pos.
  assert (EC0 : s_fading channel = (C1, true, 0%R) /\ s_complex channel = true). { unfold siso_init, siso_set in EC. destruct (Req_EM_T _ 1); [|discriminate]. injection EC as <-. split; reflexivity. } destruct EC0 as [EF Ecx].
  set (lk := siso_link dr md). set (w0 := {| sw_channel := channel; sw_sent := 0 |}). set (w1 := {| sw_channel := siso_with_std channel (Some (Some s)); sw_sent := 0 |}).
  set (Inv := fun w : siso_world => s_std (sw_channel w) = Some (Some s) /\ s_fading (sw_channel w) = (C1, true, 0%R) /\ s_complex (sw_channel w) = true).
  assert (ES : l_set_snr lk w0 snr = Ok w1).
  { cbn [lk siso_link l_set_snr w0 sw_channel sw_sent siso_do]. unfold snr_dB. destruct (Req_EM_T _ 0) as [F|_]; [lra|]. rewrite Ecx. unfold np_sqrt. change (INR 1) with 1%R.
    replace ((1 + 1) * 1 * energy md / (1 * Rpower 10 (snr / 10)))%R with (2 * energy md / Rpower 10 (snr / 10))%R by (rewrite Rmult_1_l; f_equal; ring).
    destruct (Rlt_dec _ 0) as [F|_]; [|reflexivity]. exfalso. apply (Rlt_not_le _ _ F). apply Rmult_le_pos; [lra|left; apply Rinv_0_lt_compat; exact HPw]. }
  assert (HI : Inv w1) by (split; [reflexivity|split; [exact EF|exact Ecx]]).
  assert (Hbt : 0 < Z.of_nat (num_bits md)) by lia.
  destruct (round_chunk_facts (Z.of_nat (num_bits md)) 1 1 Hbt ltac:(lia) (match sc with Some n => n | None => err_min end)) as (Hch & (k & Hk) & _). fold chunk in Hch, Hk. cbv zeta in Hk. rewrite divider_one in Hk by exact Hbt.
  assert (Hk0 : 0 < k) by nia. assert (EN : Z.to_nat chunk = (Z.to_nat k * num_bits md)%nat) by (rewrite Hk, Z2Nat.inj_mul by lia; rewrite Nat2Z.id; lia).
  assert (Hs0 : (0 <= s)%R) by apply sqrt_pos.
  assert (SE : forall N w, (0 < N)%nat -> Inv w -> exists msg w', transmit lk w (N * num_bits md) = Ok (msg, msg, w') /\ length msg = (N * num_bits md)%nat /\ bits msg /\ Inv w').
  { intros N w HN (I1 & I2 & I3). set (t := sw_sent w). set (msg := map (fun i => Z.b2z (b_bits dr t i)) (seq 0 (N * num_bits md))).
    assert (Hb : bits msg). { apply Forall_forall. intros x Hx. apply in_map_iff in Hx. destruct Hx as (i & <- & _). destruct (b_bits dr t i); [right|left]; reflexivity. }
    assert (HL : length msg = (N * num_bits md)%nat) by (unfold msg; rewrite map_length, seq_length; reflexivity).
    assert (Hmne : msg <> []) by (intros F; rewrite F in HL; cbn [length] in HL; nia).
    destruct (C68_margin_proof c g md msg d EI ND Hc Hb Hmne ltac:(rewrite HL; apply Nat.mod_mul; lia) Hd) as (sy & Em & Hrx).
    assert (Hne : sy <> []). { intros F. subst sy. rewrite modulate_ok in Em by assumption. injection Em as Em. apply map_eq_nil in Em. apply (f_equal (@length nat)) in Em. rewrite seq_length in Em. unfold count in Em. cbn [length] in Em. apply Nat.div_small_iff in Em; [|lia]. rewrite HL in Em. nia. }
    destruct (awgn_output (sw_channel w) s sy (b_n1 dr t) (b_n2 dr t) (b_g1 dr t) (b_g2 dr t) I1 I2 I3 Hne) as (ch' & EP & J1 & J2 & J3).
    set (ys := map _ (seq 0 (length sy))) in EP. assert (ED : demodulate md ys Hard 0%R = Ok (inl msg)).
    { apply Hrx. unfold ys. rewrite <- (MimoProofs.map_nth_seq_id sy C0) at 1. generalize (seq 0 (length sy)). intros l. induction l as [|i l IH]; [constructor|]. cbn [map]. constructor; [|exact IH].
      replace (nth i sy C0 + noise true s (b_n1 dr t i) (b_n2 dr t i) - nth i sy C0)%C with (noise true s (b_n1 dr t i) (b_n2 dr t i)) by creal.
      specialize (Hnoise t i). unfold noise. set (z := mkC _ _) in *. unfold Cabs in *. replace (Cnorm2 (Cscale (1 / 2) (Cscale s z))) with ((s / 2) * (s / 2) * Cnorm2 z)%R by (unfold Cnorm2, Cscale; cbn [re im]; field). rewrite sqrt_mult by (try apply Cnorm2_nonneg; nra). rewrite sqrt_square by lra. lra. }
    eexists msg, _. split; [|split; [exact HL|split; [exact Hb|]]].
    - unfold transmit. cbn [lk siso_link l_choice l_modulate l_propagate l_receive l_decoder is_mimo nb_tx num_bits_symbol]. fold t. fold msg. rewrite Em. cbn [bind]. fold t. rewrite EP. cbn [bind]. rewrite ED. cbn [bind]. reflexivity.
    - split; [exact J1|]. split; [exact J2|exact J3]. }
  unfold siso_full_metrics, siso_performance. fold lk w0. split.
  - unfold link_performance_full_metrics. cbn [lk siso_link num_bits_symbol nb_tx]. change (Z.of_nat 1) with 1. rewrite Z.mul_1_r. fold lk chunk. rewrite <- (Z2Nat.id chunk) at 2 by lia.
    apply (full_zero lk Inv (Z.to_nat chunk) ncps) with (w1 := w1); [|exact He|exact ES|exact HI].
    intros w Iw. replace (Z.to_nat chunk * ncps)%nat with (Z.to_nat k * ncps * num_bits md)%nat by (rewrite EN; lia). apply SE; [nia|exact Iw].
  - intros Hs Hf. unfold link_performance. cbn [lk siso_link num_bits_symbol nb_tx]. change (Z.of_nat 1) with 1. rewrite Z.mul_1_r. fold lk chunk.
    apply (perf_zero lk Inv chunk Hch) with (w1 := w1); [|exact He|exact Hs|exact Hf|exact ES|exact HI]. intros w Iw. rewrite EN. apply SE; [lia|exact Iw].
Qed.

(* ---------------------------------------------------------------- a link whose errors are known: link_performance *)
Lemma Zsum_app2 a b : Zsum (a ++ b) = Zsum a + Zsum b.
Proof. induction a as [|x a IH]; [reflexivity|]. cbn [app]. change (Zsum (x :: (a ++ b))) with (x + Zsum (a ++ b)). change (Zsum (x :: a)) with (x + Zsum a). rewrite IH. lia. Qed.
Section Counting.
Context {W Snr Sy Y G V : Type} (m : link W Snr Sy Y G V) (Any : nat -> W -> Prop) (St : Snr -> nat -> W -> Prop) (err : Snr -> nat -> Z) (chunk send_max err_min : Z).
Hypothesis Hchunk : 0 < chunk.
Hypothesis sends : forall s t w, St s t w -> exists msg dec w', transmit m w (Z.to_nat chunk) = Ok (msg, dec, w') /\ xor_sum msg (firstn (length msg) dec) = Ok (err s t) /\ St s (S t) w'.
Hypothesis sets : forall s t w, Any t w -> exists w', l_set_snr m w s = Ok w' /\ St s t w'.
Hypothesis any : forall s t w, St s t w -> Any t w.
Definition tot (s : Snr) (t k : nat) : Z := Zsum (map (err s) (seq t k)).
Lemma tot_S s t k : tot s t (S k) = err s t + tot s (S t) k. Proof. reflexivity. Qed.
Lemma send_loop_count : forall fuel s t w sent e, St s t w -> (Z.to_nat (send_max - sent) < fuel)%nat ->
  exists k w', send_loop fuel m send_max err_min chunk sent e w = Ok (e + tot s t k, sent + chunk * Z.of_nat k, w') /\ St s (t + k) w' /\
    (send_max <= sent + chunk * Z.of_nat k \/ err_min <= e + tot s t k) /\ forall i, (i < k)%nat -> sent + chunk * Z.of_nat i < send_max /\ e + tot s t i < err_min.
Proof.
  induction fuel as [|f IH]; intros s t w sent e HS Hf; [lia|]. cbn [send_loop].
  assert (Stop : send_max <= sent \/ err_min <= e -> exists k w', Ok (e, sent, w) = Ok (e + tot s t k, sent + chunk * Z.of_nat k, w') /\ St s (t + k) w' /\
    (send_max <= sent + chunk * Z.of_nat k \/ err_min <= e + tot s t k) /\ forall i, (i < k)%nat -> sent + chunk * Z.of_nat i < send_max /\ e + tot s t i < err_min).
  { intros H. exists 0%nat, w. change (Z.of_nat 0) with 0. change (tot s t 0) with 0. rewrite Z.mul_0_r, !Z.add_0_r, Nat.add_0_r. split; [reflexivity|]. split; [exact HS|]. split; [exact H|]. intros i Hi. lia. }
  destruct (Z.ltb_spec sent send_max) as [L1|L1]; [|apply Stop; lia]. destruct (Z.ltb_spec e err_min) as [L2|L2]; cbn [andb]; [|apply Stop; lia].
  destruct (sends s t w HS) as (msg & dec & w1 & E1 & E2 & S1). rewrite E1. cbn [bind]. rewrite E2. cbn [bind].
  destruct (IH s (S t) w1 (sent + chunk) (e + err s t) S1 ltac:(lia)) as (k & w' & E3 & S3 & H3 & H4). exists (S k), w'. rewrite E3. rewrite tot_S, Nat2Z.inj_succ.
  split; [do 3 f_equal; lia|]. split; [replace (t + S k)%nat with (S t + k)%nat by lia; exact S3|]. split; [destruct H3; [left|right]; lia|].
  intros [|i] Hi; [change (Z.of_nat 0) with 0; change (tot s t 0) with 0; lia|]. specialize (H4 i ltac:(lia)). rewrite tot_S, Nat2Z.inj_succ. lia.
Qed.
Lemma snr_loop_count : forall fuel, 1 <= err_min -> 1 <= send_max -> (Z.to_nat send_max < fuel)%nat -> forall snrs t w d, Any t w ->
  exists counts : list nat, (length counts <= length snrs)%nat /\ (snrs <> [] -> counts <> []) /\
    let first := fun j => (t + fold_right Nat.add 0%nat (firstn j counts))%nat in
    let errors := fun j k => tot (nth j snrs d) (first j) k in
    snr_loop fuel m send_max err_min chunk w snrs =
      Ok (map (fun j => Some (errors j (nth j counts 0%nat), chunk * Z.of_nat (nth j counts 0%nat))) (seq 0 (length counts)) ++ repeat None (length snrs - length counts)) /\
    forall j, (j < length counts)%nat -> let c := nth j counts 0%nat in (1 <= c)%nat /\ (send_max <= chunk * Z.of_nat c \/ err_min <= errors j c) /\
      (forall k, (k < c)%nat -> chunk * Z.of_nat k < send_max /\ errors j k < err_min) /\ ((S j < length snrs)%nat -> (length counts = S j <-> errors j c < err_min)).
Proof.
  intros fuel He Hm Hf. induction snrs as [|s snrs IH]; intros t w d HA.
  - exists []. split; [apply Nat.le_0_l|]. split; [congruence|]. cbv zeta. split; [reflexivity|]. intros j Hj. cbn in Hj. lia.
  - cbn [snr_loop]. destruct (sets s t w HA) as (w1 & E1 & S1). rewrite E1. cbn [bind].
    destruct (send_loop_count fuel s t w1 0 0 S1 ltac:(rewrite Z.sub_0_r; exact Hf)) as (k & w2 & E2 & S2 & H2 & H3). rewrite E2. cbn [bind]. cbn [Z.add] in *.
    assert (Hk : (1 <= k)%nat). { destruct k; [|lia]. change (Z.of_nat 0) with 0 in H2. change (tot s t 0) with 0 in H2. lia. }
    replace (chunk * Z.of_nat k =? 0) with false by (symmetry; apply Z.eqb_neq; nia).
    assert (H3' : forall i, (i < k)%nat -> chunk * Z.of_nat i < send_max /\ tot s t i < err_min) by (intros i Hi; specialize (H3 i Hi); lia).
    destruct (Z.ltb_spec (tot s t k) err_min) as [L|L].
    + exists [k]. split; [cbn [length]; lia|]. split; [congruence|]. cbv zeta. cbn [length seq map nth firstn fold_right app Nat.sub]. rewrite Nat.add_0_r, Nat.sub_0_r. split; [reflexivity|].
      intros j Hj. assert (j = 0%nat) as -> by lia. cbn [nth firstn fold_right]. rewrite Nat.add_0_r. split; [exact Hk|]. split; [exact H2|]. split; [exact H3'|]. intros _. split; [intros _; exact L|reflexivity].
    + destruct (IH (t + k)%nat w2 d (any _ _ _ S2)) as (counts & C1 & C2 & C3 & C4). rewrite C3. cbn [bind]. exists (k :: counts). split; [cbn [length]; lia|]. split; [congruence|]. cbv zeta. split.
      * cbn [length Nat.sub seq map nth firstn fold_right app]. rewrite Nat.add_0_r. f_equal. f_equal. rewrite <- seq_shift, map_map. f_equal. apply map_ext. intros j. cbn [nth firstn fold_right]. rewrite Nat.add_assoc. reflexivity.
      * intros [|j] Hj; cbn [nth firstn fold_right].
        -- rewrite Nat.add_0_r. split; [exact Hk|]. split; [exact H2|]. split; [exact H3'|]. cbn [length]. intros Hl. split; [|lia]. intros F. exfalso. destruct counts; [apply C2; [intros F2; rewrite F2 in Hl; cbn in Hl; lia|reflexivity]|discriminate F].
        -- cbn [length] in Hj. rewrite Nat.add_assoc. destruct (C4 j ltac:(lia)) as (Q1 & Q2 & Q3 & Q4). split; [exact Q1|]. split; [exact Q2|]. split; [exact Q3|]. cbn [length]. intros Hl. specialize (Q4 ltac:(lia)). rewrite <- Q4. lia.
Qed.
End Counting.
Lemma mapM_map {A B D} (f : B -> res D) (g : A -> B) l : mapM f (map g l) = mapM (fun x => f (g x)) l.
Proof. induction l as [|x l IH]; [reflexivity|]. cbn [map mapM]. destruct (f (g x)); [|reflexivity]. cbn [bind]. rewrite IH. reflexivity. Qed.
Lemma psk2_points : psk_points 2 = [C1; mkC (-1) 0].
Proof.
  unfold psk_points. cbn [seq map INR]. f_equal; [|f_equal]; unfold cis; apply C_ext; cbn [re im C1].
  - rewrite Rmult_0_l. apply cos_0.
  - rewrite Rmult_0_l. apply sin_0.
  - replace (1 * (2 * PI / (1 + 1)))%R with PI by field. apply cos_PI.
  - replace (1 * (2 * PI / (1 + 1)))%R with PI by field. apply sin_PI.
Qed.
Lemma bpsk_modem md : psk_modem 2 = Ok md -> points md = [C1; mkC (-1) 0] /\ num_bits md = 1%nat /\ energy md = 1%R.
Proof.
  intros E. unfold psk_modem in E. cbn [Nat.eqb] in E. change (log2_exact 2) with (Some 1%nat) in E. rewrite psk2_points in E. pose proof E as E0. unfold modem_init in E.
  change (log2_exact (length [C1; mkC (-1) 0])) with (Some 1%nat) in E. unfold set_constellation in E. cbn [length map gray_sequence Nat.pow Nat.mul Nat.add] in E.
  change (argsort (gray_sequence 1)) with [0%nat; 1%nat] in E. cbn [map nth length] in E. change (log2_exact 2) with (Some 1%nat) in E. destruct (signal_power _) as [p|] eqn:EP; [|discriminate]. cbn [bind] in E. injection E as <-. cbn [points num_bits energy].
  split; [reflexivity|]. split; [reflexivity|]. unfold signal_power in EP. injection EP as <-. unfold Cabs, Cnorm2. cbn [map Rsum fold_right length INR re im C1].
  replace (1 * 1 + 0 * 0)%R with 1%R by ring. replace (-1 * -1 + 0 * 0)%R with 1%R by ring. rewrite sqrt_1. field.
Qed.
Lemma bpsk_decides md y : points md = [C1; mkC (-1) 0] -> hard_index md y = Ok (if Rlt_dec (re y) 0 then 1%nat else 0%nat).
Proof.
  intros E. unfold hard_index. rewrite E. cbn [map argmin argmin_from]. f_equal. unfold Cabs.
  assert (H : forall a b : R, (0 <= a)%R -> (0 <= b)%R -> (sqrt a < sqrt b)%R <-> (a < b)%R) by (intros a b Ha Hb; split; [apply sqrt_lt_0_alt|intros L; apply sqrt_lt_1_alt; lra]).
  destruct (Rlt_dec (sqrt _) (sqrt _)) as [L|L]; destruct (Rlt_dec (re y) 0) as [L2|L2]; try reflexivity; exfalso; rewrite H in L by apply Cnorm2_nonneg; unfold Cnorm2, Csub, C1 in L; cbn [re im] in L; nra.
Qed.

Lemma C76_bpsk_proof :
(* BPSK without code and without fading, hard decisions, any draws: link_performance counts exactly the bits whose noise crosses the
     origin, every transmission with its own draws *)
  forall (dr : siso_draws) (md : modem) (noise_std : option R) (channel : siso) (snrs : list R) (fuel : nat) (send_max err_min : Z) (send_chunk : option Z),
    psk_modem 2 = Ok md -> siso_init noise_std (C1, true, 0%R) = Ok channel -> 1 <= err_min -> 1 <= send_max -> (Z.to_nat send_max < fuel)%nat ->
    let n := Z.max 1 (match send_chunk with Some c => c | None => err_min end) in
    exists counts : list nat, (length counts <= length snrs)%nat /\ (snrs <> [] -> counts <> []) /\
      let first := fun j => fold_right Nat.add 0%nat (firstn j counts) in
      let errors := fun j k => bpsk_errors dr (nth j snrs 0%R) (Z.to_nat n) (first j) k in
      siso_performance dr md channel fuel snrs send_max err_min send_chunk =
        Ok (map (fun j => Some (errors j (nth j counts 0%nat), n * Z.of_nat (nth j counts 0%nat))) (seq 0 (length counts)) ++ repeat None (length snrs - length counts)) /\
      forall j, (j < length counts)%nat -> let c := nth j counts 0%nat in (1 <= c)%nat /\ (send_max <= n * Z.of_nat c \/ err_min <= errors j c) /\
        (forall k, (k < c)%nat -> n * Z.of_nat k < send_max /\ errors j k < err_min) /\ ((S j < length snrs)%nat -> (length counts = S j <-> errors j c < err_min)).
Proof.
  intros dr md nstd channel snrs fuel send_max err_min sc EM EC He Hs Hf n.
  destruct (bpsk_modem md EM) as (EP & EB & EE).
  assert (EC0 : s_fading channel = (C1, true, 0%R) /\ s_complex channel = true). { unfold siso_init, siso_set in EC. destruct (Req_EM_T _ 1); [|discriminate]. injection EC as <-. split; reflexivity. } destruct EC0 as [EF Ecx].
  set (lk := siso_link dr md). set (w0 := {| sw_channel := channel; sw_sent := 0 |}).
  set (Any := fun (t : nat) (w : siso_world) => sw_sent w = t /\ s_fading (sw_channel w) = (C1, true, 0%R) /\ s_complex (sw_channel w) = true).
  set (sd := fun snr : R => sqrt (2 / Rpower 10 (snr / 10))).
  set (St := fun (snr : R) (t : nat) (w : siso_world) => s_std (sw_channel w) = Some (Some (sd snr)) /\ Any t w).
  set (err := fun (snr : R) (t : nat) => Z.of_nat (length (filter (bpsk_wrong dr snr t) (seq 0 (Z.to_nat n))))).
  assert (Hn : 0 < n) by (unfold n; lia).
  assert (sets : forall s t w, Any t w -> exists w', l_set_snr lk w s = Ok w' /\ St s t w').
  { intros s t w (A1 & A2 & A3). assert (HPw : (0 < Rpower 10 (s / 10))%R) by apply exp_pos. exists {| sw_channel := siso_with_std (sw_channel w) (Some (Some (sd s))); sw_sent := t |}. split.
    - cbn [lk siso_link l_set_snr siso_do]. unfold snr_dB. destruct (Req_EM_T _ 0) as [F|_]; [lra|]. rewrite A3, EE. unfold np_sqrt. change (INR 1) with 1%R.
      replace ((1 + 1) * 1 * 1 / (1 * Rpower 10 (s / 10)))%R with (2 / Rpower 10 (s / 10))%R by (rewrite Rmult_1_l; f_equal; ring).
      destruct (Rlt_dec _ 0) as [F|_]; [|rewrite A1; reflexivity]. exfalso. apply (Rlt_not_le _ _ F). apply Rmult_le_pos; [lra|left; apply Rinv_0_lt_compat; exact HPw].
    - split; [reflexivity|]. split; [reflexivity|]. split; [exact A2|exact A3]. }
  assert (sends : forall s t w, St s t w -> exists msg dec w', transmit lk w (Z.to_nat n) = Ok (msg, dec, w') /\ xor_sum msg (firstn (length msg) dec) = Ok (err s t) /\ St s (S t) w').
  { intros s t w (I1 & A1 & I2 & I3). set (N := Z.to_nat n). assert (HN : (0 < N)%nat) by (unfold N; lia). set (msg := map (fun i => Z.b2z (b_bits dr t i)) (seq 0 N)).
    assert (Hb : bits msg). { apply Forall_forall. intros x Hx. apply in_map_iff in Hx. destruct Hx as (i & <- & _). destruct (b_bits dr t i); [right|left]; reflexivity. }
    assert (HL : length msg = N) by (unfold msg; rewrite map_length, seq_length; reflexivity).
    set (sy := map (fun i => if b_bits dr t i then mkC (-1) 0 else C1) (seq 0 N)).
    assert (Em : modulate md msg = Ok sy).
    { unfold modulate. rewrite EB. cbn [Nat.eqb]. destruct msg as [|b0 msg'] eqn:EQ; [cbn in HL; lia|]. rewrite <- EQ in *. clear EQ b0 msg'. rewrite HL. replace ((N + 1 - 1) / 1)%nat with N by (rewrite Nat.div_1_r; lia). unfold sy.
      apply mapM_Ok. intros k Hk. apply in_seq in Hk. rewrite EP. replace (slice msg (k * 1) (k * 1 + 1)) with [Z.b2z (b_bits dr t k)].
      - destruct (b_bits dr t k); reflexivity.
      - rewrite Nat.mul_1_r. unfold slice. replace (k + 1 - k)%nat with 1%nat by lia. assert (Ek : nth k msg 0 = Z.b2z (b_bits dr t k)) by (unfold msg; rewrite (nth_indep _ 0 ((fun i => Z.b2z (b_bits dr t i)) 0%nat)) by (rewrite map_length, seq_length; lia); rewrite (map_nth (fun i => Z.b2z (b_bits dr t i))), seq_nth by lia; reflexivity).
        rewrite <- Ek. symmetry. assert (Hk' : (k < length msg)%nat) by lia. clear - Hk'. revert k Hk'. induction msg as [|x l IH]; intros [|k] H; cbn in *; try lia; [reflexivity|]. apply IH. lia. }
    assert (Ls : length sy = N) by (unfold sy; rewrite map_length, seq_length; reflexivity). assert (Hne : sy <> []) by (intros F; rewrite F in Ls; cbn in Ls; lia).
    destruct (awgn_output (sw_channel w) (sd s) sy (b_n1 dr t) (b_n2 dr t) (b_g1 dr t) (b_g2 dr t) I1 I2 I3 Hne) as (ch' & EPr & J1 & J2 & J3). rewrite Ls in EPr.
    set (dec := map (fun i => Z.b2z (xorb (b_bits dr t i) (bpsk_wrong dr s t i))) (seq 0 N)).
    assert (ED : demodulate md (map (fun i => (nth i sy C0 + noise true (sd s) (b_n1 dr t i) (b_n2 dr t i))%C) (seq 0 N)) Hard 0%R = Ok (inl dec)).
    { unfold demodulate. rewrite mapM_map. rewrite (mapM_Ok _ (fun i => Z.to_nat (Z.b2z (xorb (b_bits dr t i) (bpsk_wrong dr s t i))))).
      - cbn [bind]. rewrite map_map. rewrite EB. unfold dec2bitarray_arr. rewrite mapM_map. rewrite (mapM_Ok _ (fun i => [Z.b2z (xorb (b_bits dr t i) (bpsk_wrong dr s t i))])).
        + cbn [bind]. do 2 f_equal. unfold dec. generalize (seq 0 N). intros l. induction l as [|x l IH]; [reflexivity|]. cbn [map concat app]. f_equal. exact IH.
        + intros i _. destruct (xorb _ _); reflexivity.
      - intros i Hi. apply in_seq in Hi. rewrite (bpsk_decides md _ EP). f_equal.
        assert (Ei : nth i sy C0 = if b_bits dr t i then mkC (-1) 0 else C1) by (unfold sy; rewrite (nth_indep _ C0 ((fun i => if b_bits dr t i then mkC (-1) 0 else C1) 0%nat)) by (rewrite map_length, seq_length; lia); rewrite (map_nth (fun i => if b_bits dr t i then mkC (-1) 0 else C1)), seq_nth by lia; reflexivity).
        rewrite Ei. unfold bpsk_wrong. fold (sd s). unfold noise. destruct (b_bits dr t i); unfold Cadd, Cscale, C1; cbn [re im];
          [destruct (Rle_dec _ _), (Rlt_dec _ _)|destruct (Rlt_dec _ (-1)), (Rlt_dec _ 0)]; try reflexivity; exfalso; lra. }
    exists msg, dec, {| sw_channel := ch'; sw_sent := S t |}. split; [|split; [|split; [exact J1|split; [reflexivity|split; [exact J2|exact J3]]]]].
    - unfold transmit. cbn [lk siso_link l_choice l_modulate l_propagate l_receive l_decoder is_mimo nb_tx num_bits_symbol]. rewrite A1. fold msg. rewrite Em. cbn [bind]. rewrite A1. rewrite EPr. cbn [bind]. rewrite ED. cbn [bind]. reflexivity.
    - assert (Hb' : bits dec). { apply Forall_forall. intros x Hx. apply in_map_iff in Hx. destruct Hx as (i & <- & _). destruct (xorb _ _); [right|left]; reflexivity. }
      assert (HL' : length dec = N) by (unfold dec; rewrite map_length, seq_length; reflexivity). rewrite firstn_all2 by lia. rewrite (xor_sum_bits msg dec Hb Hb' ltac:(lia)). f_equal. unfold bit_errors, err, msg, dec. fold N. f_equal.
      generalize (seq 0 N). intros l. induction l as [|i l IH]; [reflexivity|]. cbn [map combine filter fst snd]. destruct (b_bits dr t i), (bpsk_wrong dr s t i); cbn [xorb Z.b2z Z.eqb Pos.eqb negb length]; rewrite ?IH; reflexivity. }
  assert (HA : Any 0%nat w0) by (split; [reflexivity|split; [exact EF|exact Ecx]]).
  destruct (snr_loop_count lk Any St err n send_max err_min Hn sends sets ltac:(intros s t w [_ A]; exact A) fuel He Hs Hf snrs 0%nat w0 0%R HA) as (counts & C1 & C2 & C3 & C4).
  exists counts. split; [exact C1|]. split; [exact C2|]. cbv zeta in *. unfold siso_performance, link_performance. cbn [siso_link num_bits_symbol nb_tx]. rewrite EB. fold lk w0.
  assert (EN : round_chunk (Z.of_nat 1 * Z.of_nat 1) 1 1 (match sc with Some c => c | None => err_min end) = n) by (change (Z.of_nat 1 * Z.of_nat 1) with 1; unfold round_chunk; rewrite divider_one by lia; cbv zeta; rewrite Z.div_1_r, Z.mul_1_r; reflexivity).
  rewrite EN. split; [exact C3|exact C4].
Qed.

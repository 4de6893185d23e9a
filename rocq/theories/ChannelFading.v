(* Channels: the fading methods, histories. *)
From Verif Require Import Base UtilModel UtilProofs Cplx ModemModel ModemProofs MimoModel MimoProofs ChannelModel ChannelSpec ChannelProofs.
Open Scope Z_scope.

Definition tx_f (f : fading) (t r : nat) : Prop := shape t t (f_rt f) /\ shape r r (f_rr f) /\ shape r t (m_rows (f_mean f)).
Lemma identity_shape : forall n, shape n n (identity n). Proof. intros n. rewrite identity_build. apply build_shape. Qed.
Lemma expo_shape : forall n z, shape n n (expo_matrix n z). Proof. intros n z. rewrite expo_build. apply build_shape. Qed.
Lemma zeros_shape : forall r c, shape r c (zeros r c). Proof. intros r c. rewrite zeros_build. apply build_shape. Qed.
Lemma zeros_energy : forall r c, energy_of (zeros r c) = 0%R. Proof. intros r c. rewrite zeros_build. apply energy_build_0. Qed.
Lemma too_big_false : forall z, (Cabs z <= 1 + 1 / 10000)%R -> too_big z = false.
Proof. intros z H. unfold too_big. destruct (Rlt_dec _ _); [lra|reflexivity]. Qed.
Lemma too_big_true : forall z, (1 + 1 / 10000 < Cabs z)%R -> too_big z = true.
Proof. intros z H. unfold too_big. destruct (Rlt_dec _ _); [reflexivity|lra]. Qed.

Section FADING.
  Variable ch : mimo.
  Hypothesis (Ht : (1 <= t_nb ch)%nat) (Hr : (1 <= r_nb ch)%nat).
  Notation T := (t_nb ch). Notation Rx := (r_nb ch).

  Lemma zero_total : forall f, f_mean f = plain (zeros Rx T) (m_cplx (f_mean f)) -> diag_sum T (f_rt f) = ofR (INR T) -> diag_sum Rx (f_rr f) = ofR (INR Rx) ->
    total_energy T Rx f = ofR (INR T * INR Rx).
  Proof. intros f E1 E2 E3. unfold total_energy. rewrite E1, E2, E3. cbn [plain m_rows]. rewrite zeros_energy. creal. Qed.
  Lemma rayleigh_ok : forall cplx, uncorr_rayleigh ch cplx = (mimo_with ch {| f_mean := plain (zeros Rx T) cplx; f_rt := identity T; f_rr := identity Rx |} cplx, Ok tt).
  Proof.
    intros cplx. unfold uncorr_rayleigh. apply (set_exact ch {| f_mean := plain (zeros Rx T) cplx; f_rt := identity T; f_rr := identity Rx |}); cbn [f_mean f_rt f_rr plain m_rows]; try assumption; try apply identity_shape; try apply zeros_shape.
    apply zero_total; cbn [f_mean f_rt f_rr plain m_cplx]; [reflexivity|apply identity_diag|apply identity_diag].
  Qed.
  (* the KBSM update keeps the energy *)
  Lemma kbsm_ok : forall (ch' : mimo) bt br, t_nb ch' = T -> r_nb ch' = Rx -> tx_f (m_fading ch') T Rx -> total_energy T Rx (m_fading ch') = ofR (INR T * INR Rx) -> (0 <= bt)%R -> (0 <= br)%R ->
    let f := {| f_mean := f_mean (m_fading ch'); f_rt := mat_mul_elt (f_rt (m_fading ch')) (decay T bt); f_rr := mat_mul_elt (f_rr (m_fading ch')) (decay Rx br) |} in
    update_KBSM ch' bt br = (mimo_with ch' f (m_cplx (f_mean f)), Ok tt) /\ tx_f f T Rx /\ total_energy T Rx f = ofR (INR T * INR Rx) /\ diag_sum T (f_rt f) = diag_sum T (f_rt (m_fading ch')) /\ diag_sum Rx (f_rr f) = diag_sum Rx (f_rr (m_fading ch')).
  Proof.
    intros ch' bt br ET ER (S1 & S2 & S3) E Hbt Hbr f. assert (SF : tx_f f T Rx) by (split; [apply decay_mul_shape, S1|split; [apply decay_mul_shape, S2|exact S3]]).
    assert (DT : diag_sum T (f_rt f) = diag_sum T (f_rt (m_fading ch'))) by (apply decay_mul_diag, S1). assert (DR : diag_sum Rx (f_rr f) = diag_sum Rx (f_rr (m_fading ch'))) by (apply decay_mul_diag, S2).
    assert (EF : total_energy T Rx f = ofR (INR T * INR Rx)) by (unfold total_energy in *; rewrite DT, DR; exact E). split; [|auto]. unfold update_KBSM. destruct (Rlt_dec br 0); [lra|]. destruct (Rlt_dec bt 0); [lra|]. cbn [orb]. rewrite ET, ER. fold f. apply set_exact; rewrite ?ET, ?ER; try assumption; apply SF.
  Qed.
  Lemma kbsm_neg : forall ch' bt br, (bt < 0)%R \/ (br < 0)%R -> update_KBSM ch' bt br = (ch', Err ValueError).
  Proof. intros ch' bt br H. unfold update_KBSM. destruct (Rlt_dec br 0); [reflexivity|]. destruct (Rlt_dec bt 0); [reflexivity|]. destruct H; lra. Qed.

  Definition expo_f (t r : C) : fading := {| f_mean := plain (zeros Rx T) true; f_rt := expo_matrix T t; f_rr := expo_matrix Rx r |}.
  Definition expo_fb (t r : C) (bt br : R) : fading := {| f_mean := plain (zeros Rx T) true; f_rt := mat_mul_elt (expo_matrix T t) (decay T bt); f_rr := mat_mul_elt (expo_matrix Rx r) (decay Rx br) |}.
  Lemma expo_f_ok : forall t r, tx_f (expo_f t r) T Rx /\ total_energy T Rx (expo_f t r) = ofR (INR T * INR Rx).
  Proof.
    intros t r. split; [split; [apply expo_shape|split; [apply expo_shape|apply zeros_shape]]|]. apply zero_total; cbn [expo_f f_mean f_rt f_rr plain m_cplx]; [reflexivity|apply expo_diag|apply expo_diag].
  Qed.
  Lemma expo_rayleigh_set : forall t r bt br, (Cabs t <= 1 + 1 / 10000)%R -> (Cabs r <= 1 + 1 / 10000)%R -> expo_rayleigh ch t r bt br = update_KBSM (mimo_with ch (expo_f t r) true) bt br.
  Proof.
    intros t r bt br H1 H2. unfold expo_rayleigh. rewrite !too_big_false by assumption. destruct (expo_f_ok t r) as ((S1 & S2 & S3) & E). fold (expo_f t r). rewrite (set_exact ch (expo_f t r)) by assumption. reflexivity.
  Qed.
  Lemma expo_rayleigh_ok : forall t r bt br, (Cabs t <= 1 + 1 / 10000)%R -> (Cabs r <= 1 + 1 / 10000)%R -> (0 <= bt)%R -> (0 <= br)%R ->
    expo_rayleigh ch t r bt br = (mimo_with ch (expo_fb t r bt br) true, Ok tt) /\ tx_f (expo_fb t r bt br) T Rx /\ total_energy T Rx (expo_fb t r bt br) = ofR (INR T * INR Rx).
  Proof.
    intros t r bt br H1 H2 H3 H4. rewrite expo_rayleigh_set by assumption. destruct (expo_f_ok t r) as (S & E). destruct (kbsm_ok (mimo_with ch (expo_f t r) true) bt br eq_refl eq_refl S E H3 H4) as (K1 & K2 & K3 & _ & _). rewrite K1. split; [reflexivity|]. split; assumption.
  Qed.

  (* Rician fading *)
  Variables (mean : fmat) (k : R).
  Hypothesis (Hm : shape Rx T (m_rows mean)) (Hn : m_nan mean = false).
  Notation N := (INR (mat_size (m_rows mean))).
  Lemma size_ok : N = (INR T * INR Rx)%R.
  Proof. unfold mat_size. replace (hd [] (m_rows mean)) with (nth 0 (m_rows mean) []) by (destruct (m_rows mean); reflexivity). rewrite (shape_row Rx T) by (assumption || lia). destruct Hm as (H1 & _). rewrite H1, mult_INR. ring. Qed.
  Lemma N_pos : (0 < N)%R. Proof. rewrite size_ok. apply Rmult_lt_0_compat; apply lt_0_INR; lia. Qed.
  Definition rice (base_t base_r : list (list C)) : fading := {| f_mean := scaled_mean mean k (N / (k + 1)); f_rt := mat_scale (N / (k + 1) / N) base_t; f_rr := base_r |}.
  Lemma abs2_energy : abs2_sum (m_rows mean) = energy_of (m_rows mean).
  Proof. unfold abs2_sum, energy_of. apply Rsum_map_ext. intros row _. apply Rsum_map_ext. intros z _. apply Cabs_sqr. Qed.
  Lemma energy_nonneg : forall m, (0 <= energy_of m)%R.
  Proof. intros m. apply Rsum_nonneg. intros x Hx. apply in_map_iff in Hx as (row & <- & _). apply Rsum_nonneg. intros y Hy. apply in_map_iff in Hy as (z & <- & _). apply Cnorm2_nonneg. Qed.

  Lemma scaled_ok : (0 <= k)%R -> energy_of (m_rows mean) <> 0%R ->
    exists s, (0 <= s)%R /\ scaled_mean mean k (N / (k + 1)) = {| m_rows := mat_scale s (m_rows mean); m_cplx := m_cplx mean; m_nan := false |} /\ energy_of (mat_scale s (m_rows mean)) = (k * (N / (k + 1)))%R.
  Proof.
    intros Hk He. pose proof (energy_nonneg (m_rows mean)). pose proof N_pos. exists (sqrt (k * (N / (k + 1)) / energy_of (m_rows mean))). split; [apply sqrt_pos|].
    assert (Q : (0 <= k * (N / (k + 1)) / energy_of (m_rows mean))%R). { apply Rmult_le_pos; [apply Rmult_le_pos; [exact Hk|apply Rlt_le, Rdiv_lt_0_compat; lra]|]. apply Rlt_le, Rinv_0_lt_compat. lra. }
    split.
    - unfold scaled_mean. rewrite abs2_energy. destruct (Req_EM_T _ 0); [lra|]. unfold np_sqrt. destruct (Rlt_dec _ 0); [lra|]. rewrite Hn. reflexivity.
    - rewrite energy_scale, sqrt_sqrt by exact Q. field. lra.
  Qed.
  Lemma scaled_nan : energy_of (m_rows mean) = 0%R \/ (-1 < k < 0)%R -> scaled_mean mean k (N / (k + 1)) = {| m_rows := m_rows mean; m_cplx := m_cplx mean; m_nan := true |}.
  Proof.
    intros H. unfold scaled_mean. rewrite abs2_energy. destruct (Req_EM_T (energy_of (m_rows mean)) 0) as [_|He]; [reflexivity|]. destruct H as [H|Hk]; [lra|]. pose proof (energy_nonneg (m_rows mean)). pose proof N_pos. unfold np_sqrt.
    assert (Q : (k * (N / (k + 1)) / energy_of (m_rows mean) < 0)%R). { assert (P : (0 < N / (k + 1))%R) by (apply Rdiv_lt_0_compat; lra). assert (P2 : (0 < / energy_of (m_rows mean))%R) by (apply Rinv_0_lt_compat; lra). unfold Rdiv at 1. assert (k * (N / (k + 1)) < 0)%R by nra. nra. }
    destruct (Rlt_dec _ 0); [reflexivity|lra].
  Qed.
  Lemma rice_total : forall bt br, (0 <= k)%R -> energy_of (m_rows mean) <> 0%R -> shape T T bt -> shape Rx Rx br -> diag_sum T bt = ofR (INR T) -> diag_sum Rx br = ofR (INR Rx) ->
    tx_f (rice bt br) T Rx /\ total_energy T Rx (rice bt br) = ofR (INR T * INR Rx) /\ (diag_sum T (f_rt (rice bt br)) * diag_sum Rx (f_rr (rice bt br)))%C = ofR (N / (k + 1)) /\
    energy_of (m_rows (f_mean (rice bt br))) = (k * (N / (k + 1)))%R /\ m_nan (f_mean (rice bt br)) = false /\ m_cplx (f_mean (rice bt br)) = m_cplx mean.
  Proof.
    intros bt br Hk He S1 S2 D1 D2. destruct (scaled_ok Hk He) as (s & Hs & E & En). pose proof N_pos as HN.
    assert (TR : (diag_sum T (mat_scale (N / (k + 1) / N) bt) * diag_sum Rx br)%C = ofR (N / (k + 1))). { rewrite scale_diag by exact S1. rewrite D1, D2. unfold Cscale, ofR, Cmul. cbn [re im]. f_equal; [|ring]. rewrite size_ok in *. field. split; [lra|]. assert (0 < INR T)%R by (apply lt_0_INR; lia). assert (0 < INR Rx)%R by (apply lt_0_INR; lia). lra. }
    unfold rice. cbn [f_mean f_rt f_rr]. rewrite E. cbn [m_rows m_nan m_cplx]. split; [split; [apply scale_shape, S1|split; [exact S2|cbn [f_mean m_rows]; apply scale_shape, Hm]]|]. split; [|auto]. unfold total_energy. cbn [f_rt f_rr f_mean m_rows]. rewrite TR, En. rewrite <- size_ok. unfold ofR, Cadd. cbn [re im]. f_equal; [field; lra|ring].
  Qed.
  Lemma rician_ok : (0 <= k)%R -> energy_of (m_rows mean) <> 0%R -> uncorr_rician ch mean k = (mimo_with ch (rice (identity T) (identity Rx)) (m_cplx mean), Ok tt).
  Proof.
    intros Hk He. unfold uncorr_rician. destruct (Req_EM_T (k + 1) 0); [lra|]. fold (rice (identity T) (identity Rx)). destruct (rice_total (identity T) (identity Rx) Hk He (identity_shape _) (identity_shape _) (identity_diag _) (identity_diag _)) as ((S1 & S2 & S3) & E & _ & _ & _ & EC). rewrite (set_exact ch (rice (identity T) (identity Rx))) by assumption. rewrite EC. reflexivity.
  Qed.
  Lemma rician_nan : energy_of (m_rows mean) = 0%R \/ (-1 < k < 0)%R -> k <> (-1)%R -> uncorr_rician ch mean k = (mimo_with ch (rice (identity T) (identity Rx)) (m_cplx mean), Ok tt) /\ m_nan (f_mean (rice (identity T) (identity Rx))) = true.
  Proof.
    intros H Hk. unfold uncorr_rician. destruct (Req_EM_T (k + 1) 0); [lra|]. fold (rice (identity T) (identity Rx)). assert (E := scaled_nan H). assert (EN : m_nan (f_mean (rice (identity T) (identity Rx))) = true) by (cbn [rice f_mean]; rewrite E; reflexivity). split; [|exact EN].
    rewrite (set_nan ch (rice (identity T) (identity Rx))); [cbn [rice f_mean]; rewrite E; reflexivity|exact EN|assumption|assumption|]. cbn [rice f_mean]. rewrite E. exact Hm.
  Qed.
  Definition rice_b (t r : C) (bt br : R) : fading := {| f_mean := f_mean (rice (expo_matrix T t) (expo_matrix Rx r)); f_rt := mat_mul_elt (f_rt (rice (expo_matrix T t) (expo_matrix Rx r))) (decay T bt); f_rr := mat_mul_elt (expo_matrix Rx r) (decay Rx br) |}.
  Lemma expo_rician_set : forall t r bt br, (0 <= k)%R -> energy_of (m_rows mean) <> 0%R -> (Cabs t <= 1 + 1 / 10000)%R -> (Cabs r <= 1 + 1 / 10000)%R ->
    expo_rician ch mean k t r bt br = update_KBSM (mimo_with ch (rice (expo_matrix T t) (expo_matrix Rx r)) (m_cplx mean)) bt br.
  Proof.
    intros t r bt br Hk He H1 H2. unfold expo_rician. rewrite !too_big_false by assumption. destruct (Req_EM_T (k + 1) 0); [lra|]. fold (rice (expo_matrix T t) (expo_matrix Rx r)).
    destruct (rice_total (expo_matrix T t) (expo_matrix Rx r) Hk He (expo_shape _ _) (expo_shape _ _) (expo_diag _ _) (expo_diag _ _)) as ((S1 & S2 & S3) & E & _ & _ & _ & EC). rewrite (set_exact ch (rice (expo_matrix T t) (expo_matrix Rx r))) by assumption. rewrite EC. reflexivity.
  Qed.
  Lemma expo_rician_ok : forall t r bt br, (0 <= k)%R -> energy_of (m_rows mean) <> 0%R -> (Cabs t <= 1 + 1 / 10000)%R -> (Cabs r <= 1 + 1 / 10000)%R -> (0 <= bt)%R -> (0 <= br)%R ->
    expo_rician ch mean k t r bt br = (mimo_with ch (rice_b t r bt br) (m_cplx mean), Ok tt) /\ tx_f (rice_b t r bt br) T Rx /\ total_energy T Rx (rice_b t r bt br) = ofR (INR T * INR Rx) /\
    (diag_sum T (f_rt (rice_b t r bt br)) * diag_sum Rx (f_rr (rice_b t r bt br)))%C = ofR (N / (k + 1)) /\ energy_of (m_rows (f_mean (rice_b t r bt br))) = (k * (N / (k + 1)))%R.
  Proof.
    intros t r bt br Hk He H1 H2 H3 H4. rewrite expo_rician_set by assumption. destruct (rice_total (expo_matrix T t) (expo_matrix Rx r) Hk He (expo_shape _ _) (expo_shape _ _) (expo_diag _ _) (expo_diag _ _)) as (S & E & TR & EN & _ & EC).
    destruct (kbsm_ok (mimo_with ch (rice (expo_matrix T t) (expo_matrix Rx r)) (m_cplx mean)) bt br eq_refl eq_refl S E H3 H4) as (K1 & K2 & K3 & K4 & K5). rewrite K1. split; [cbn [mimo_with m_fading f_mean]; rewrite EC; reflexivity|]. split; [exact K2|]. split; [exact K3|]. split; [|exact EN]. unfold rice_b. cbn [f_rt f_rr]. cbn [f_rt f_rr mimo_with m_fading] in K4, K5. rewrite K4. rewrite <- TR. f_equal. exact K5.
  Qed.
  Lemma k_value : forall f, tx_f f T Rx -> (0 <= k)%R -> (diag_sum T (f_rt f) * diag_sum Rx (f_rr f))%C = ofR (N / (k + 1)) -> energy_of (m_rows (f_mean f)) = (k * (N / (k + 1)))%R ->
    forall c, mimo_k (mimo_with ch f c) = ofR k.
  Proof.
    intros f (S1 & S2 & _) Hk E1 E2 c. unfold mimo_k. cbn [mimo_with m_fading]. rewrite (nlos_trace T Rx) by assumption. rewrite los_energy, E1, E2. pose proof N_pos as HN. assert (P : (0 < N / (k + 1))%R) by (apply Rdiv_lt_0_compat; lra). unfold Crecip, ofR, Cmul, Cnorm2. cbn [re im]. set (x := (N / (k + 1))%R) in *. f_equal; field; nra.
  Qed.
End FADING.

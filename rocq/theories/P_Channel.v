(* Channels: properties C50-C54, C64. *)
From Verif Require Import Base Cplx ModemModel MimoModel MimoSpec ChannelModel ChannelSpec ChannelTop.
Open Scope Z_scope.

(* ---------------------------------------------------------------- C50 *)

Theorem C50_bec :
(* a new array; an entry is erased exactly where the draw is at most p_e; every existing array is unchanged *)
  forall (mem : memory) (a : nat) (p : R) (draws : list R), (a < length mem)%nat -> length draws = length (nth a mem []) ->
    exists mem' out, bec mem a p draws = (mem', out) /\ (length mem <= out)%nat /\ (forall r, (r < length mem)%nat -> nth r mem' [] = nth r mem []) /\ length (nth out mem' []) = length draws /\
      forall i, (i < length draws)%nat -> ((nth i draws 0 <= p)%R -> nth i (nth out mem' []) 0 = -1) /\ ((p < nth i draws 0)%R -> nth i (nth out mem' []) 0 = nth i (nth a mem []) 0).
Proof. exact C50_bec_proof. Qed.
Print Assumptions C50_bec.

Theorem C50_bsc :
(* bits: flipped exactly where the draw is at most p_t *)
  forall (mem : memory) (a : nat) (p : R) (draws : list R), (a < length mem)%nat -> length draws = length (nth a mem []) -> bits (nth a mem []) ->
    exists mem' out, bsc mem a p draws = (mem', out) /\ (length mem <= out)%nat /\ (forall r, (r < length mem)%nat -> nth r mem' [] = nth r mem []) /\ length (nth out mem' []) = length draws /\
      forall i, (i < length draws)%nat -> ((nth i draws 0 <= p)%R -> nth i (nth out mem' []) 0 = 1 - nth i (nth a mem []) 0) /\ ((p < nth i draws 0)%R -> nth i (nth out mem' []) 0 = nth i (nth a mem []) 0).
Proof. exact C50_bsc_proof. Qed.
Print Assumptions C50_bsc.

Theorem C50_certain :
(* probability 1 (or more) affects every bit: numpy's draws are below 1 *)
  forall (mem : memory) (a : nat) (p : R) (draws : list R), (a < length mem)%nat -> length draws = length (nth a mem []) -> bits (nth a mem []) -> Forall (fun u => 0 <= u < 1)%R draws -> (1 <= p)%R ->
    (let '(mem', out) := bec mem a p draws in nth out mem' [] = repeat (-1) (length draws)) /\ (let '(mem', out) := bsc mem a p draws in nth out mem' [] = map (fun b => 1 - b) (nth a mem [])).
Proof. exact C50_certain_proof. Qed.
Print Assumptions C50_certain.

Theorem C50_zero_refuted :
(* probability 0 can still affect a bit: the comparison is <= and random() may return 0.0 *)
  ~ (forall (mem : memory) (a : nat) (draws : list R), (a < length mem)%nat -> length draws = length (nth a mem []) -> bits (nth a mem []) -> Forall (fun u => 0 <= u < 1)%R draws ->
       (let '(mem', out) := bec mem a 0 draws in nth out mem' [] = nth a mem []) /\ (let '(mem', out) := bsc mem a 0 draws in nth out mem' [] = nth a mem [])).
Proof. exact C50_zero_refuted_proof. Qed.
Print Assumptions C50_zero_refuted.
Example C50_witness : (0 < length [[1; 0; 1]])%nat /\ bits (nth 0 [[1; 0; 1]] []) /\ Forall (fun u => 0 <= u < 1)%R [0; 1 / 2; 1 / 4]%R.
Proof.
  split; [cbn; lia|]. split; [|repeat (apply Forall_cons; [lra|]); apply Forall_nil].
  apply Forall_cons; [right; reflexivity|]. apply Forall_cons; [left; reflexivity|]. apply Forall_cons; [right; reflexivity|]. apply Forall_nil.
Qed.

(* ---------------------------------------------------------------- C51 *)

Theorem C51_history :
(* after any sequence of operations, whether they fail or not, the parameters are normalised and the channel is complex exactly if
     the stored mean has type complex *)
  forall (std : option R) (f : siso_param) (ch : siso) (ops : list siso_op), siso_init std f = Ok ch ->
    let ch' := fold_left (fun c o => fst (siso_do c o)) ops ch in
    let '(mean, cplx, var) := s_fading ch' in (var + Cnorm2 mean = 1)%R /\ s_complex ch' = cplx.
Proof. exact C51_history_proof. Qed.
Print Assumptions C51_history.

Theorem C51_failed_call :
(* an operation that raises leaves the channel as it was *)
  forall (ch ch' : siso) (o : siso_op) (e : exn), siso_do ch o = (ch', Err e) -> ch' = ch.
Proof. exact C51_failed_call_proof. Qed.
Print Assumptions C51_failed_call.

Theorem C51_setter :
(* accepted exactly if variance + |mean|^2 = 1, otherwise ValueError *)
  forall (ch : siso) (mean : C) (cplx : bool) (var : R),
    ((var + Cnorm2 mean = 1)%R -> exists ch', siso_set ch (mean, cplx, var) = (ch', Ok tt) /\ s_fading ch' = (mean, cplx, var) /\ s_complex ch' = cplx /\ s_std ch' = s_std ch) /\
    ((var + Cnorm2 mean <> 1)%R -> siso_set ch (mean, cplx, var) = (ch, Err ValueError)).
Proof. exact C51_setter_proof. Qed.
Print Assumptions C51_setter.

Theorem C51_constructor :
(* the constructor: the object holds the given noise level and fading parameters and nothing has been propagated yet; unnormalised
     parameters raise ValueError *)
  forall (std : option R) (mean : C) (cplx : bool) (var : R),
    ((var + Cnorm2 mean = 1)%R -> exists ch, siso_init std (mean, cplx, var) = Ok ch /\ s_std ch = option_map Some std /\ s_fading ch = (mean, cplx, var) /\ s_complex ch = cplx /\ s_noises ch = None /\ s_gains ch = None /\ s_unnoisy ch = None) /\
    ((var + Cnorm2 mean <> 1)%R -> siso_init std (mean, cplx, var) = Err ValueError).
Proof. exact C51_constructor_proof. Qed.
Print Assumptions C51_constructor.

Theorem C51_documented_condition_refuted :
(* the documented condition |variance| + |mean|^2 = 1 is not what is checked: a negative variance is accepted and propagation
     then returns only NaN *)
  ~ (forall (f : siso_param) (ch : siso), siso_init (Some 1%R) f = Ok ch -> let '(mean, _, var) := f in (Rabs var + Cnorm2 mean = 1)%R)
  /\ exists (f : siso_param) (ch : siso), siso_init (Some 1%R) f = Ok ch /\ forall m msg n1 n2 g1 g2, snd (siso_propagate ch (m :: msg) false n1 n2 g1 g2) = Ok NaNs.
Proof. exact C51_documented_condition_refuted_proof. Qed.
Print Assumptions C51_documented_condition_refuted.

Theorem C51_k_factor :
(* after any sequence of operations, with a stored variance v >= 0: k_factor is infinite for v = 0, otherwise it is the number k
     for which the fixed part carries k/(k+1) of the energy and the random part 1/(k+1) *)
  forall (std : option R) (f : siso_param) (ch : siso) (ops : list siso_op), siso_init std f = Ok ch ->
    let ch' := fold_left (fun c o => fst (siso_do c o)) ops ch in
    let '(mean, _, var) := s_fading ch' in
    (var = 0%R -> siso_k ch' = PInf) /\
    ((0 < var)%R -> exists k : R, siso_k ch' = Fin k /\ (0 <= k)%R /\ Cnorm2 mean = (k / (k + 1))%R /\ var = (1 / (k + 1))%R).
Proof. exact C51_k_factor_proof. Qed.
Print Assumptions C51_k_factor.

Theorem C51_propagate :
(* output = gain * message + noise, entry by entry; for the draws of unit variance the mean power of every gain is 1 *)
  forall (ch : siso) (msg : list C) (mc : bool) (s : R) (W : Type) (E : (W -> R) -> R) (n1 n2 g1 g2 : nat -> W -> R),
    siso_init (Some s) (s_fading ch) = Ok ch -> msg <> [] -> (mc = true -> s_complex ch = true) -> (0 <= snd (s_fading ch))%R -> expectation E ->
    exists (gain : nat -> W -> C) (eta : nat -> W -> C),
      (forall w, snd (siso_propagate ch msg mc (fun i => n1 i w) (fun i => n2 i w) (fun i => g1 i w) (fun i => g2 i w)) = Ok (Num (map (fun i => (gain i w * nth i msg C0 + eta i w)%C) (seq 0 (length msg))))) /\
      forall i, white E [true; false] (fun b : bool => if b then g1 i else g2 i) -> E (fun w => Cnorm2 (gain i w)) = 1%R.
Proof. exact C51_propagate_proof. Qed.
Print Assumptions C51_propagate.

Theorem C51_propagate_errors :
(* a complex message on a real channel: TypeError; no noise level: AssertionError; empty message: IndexError *)
  forall (ch : siso) (m : C) (msg : list C) (mc : bool) n1 n2 g1 g2,
    siso_propagate ch [] mc n1 n2 g1 g2 = (ch, Err IndexError) /\ (s_complex ch = false -> siso_propagate ch (m :: msg) true n1 n2 g1 g2 = (ch, Err TypeError)) /\
    (s_std ch = None -> (mc = true -> s_complex ch = true) -> siso_propagate ch (m :: msg) mc n1 n2 g1 g2 = (ch, Err AssertionError)).
Proof. exact C51_propagate_errors_proof. Qed.
Print Assumptions C51_propagate_errors.
Example C51_witness : (exists ch, siso_init (Some 1%R) (mkC 0 (3 / 5), true, (16 / 25)%R) = Ok ch) /\ expectation two_signs /\ white two_signs [true; false] (fun b w => if b then sign (fst w) else sign (snd w)).
Proof.
  split; [|split; [exact two_signs_expectation|exact two_signs_white]]. unfold siso_init, siso_set. rewrite Cabs_sqr. unfold Cnorm2. cbn [re im]. destruct (Req_EM_T _ 1) as [_|F]; [eexists; reflexivity|exfalso; apply F; lra].
Qed.

(* ---------------------------------------------------------------- C52 *)

Theorem C52_history :
(* after any sequence of operations, failing or not, the energy of the stored parameters is the number of antenna pairs up to 1e-3,
     unless the stored mean is NaN *)
  forall (tx rx : nat) (std : option R) (f : option fading) (ch : mimo) (ops : list mimo_op), mimo_init tx rx std f = Ok ch ->
    let ch' := fold_left (fun c o => fst (mimo_do c o)) ops ch in let g := m_fading ch' in
    m_nan (f_mean g) = true \/ (shape tx tx (f_rt g) -> shape rx rx (f_rr g) -> (Cabs (total_energy tx rx g - ofR (INR tx * INR rx))%C <= 1 / 1000)%R).
Proof. exact C52_history_proof. Qed.
Print Assumptions C52_history.

Theorem C52_rayleigh :
(* the Rayleigh setters: zero mean and exact normalisation; the constructor's default is the uncorrelated real one *)
  forall (ch : mimo), (1 <= t_nb ch)%nat -> (1 <= r_nb ch)%nat ->
    (forall cplx, exists ch', uncorr_rayleigh ch cplx = (ch', Ok tt) /\ m_complex ch' = cplx /\ total_energy (t_nb ch) (r_nb ch) (m_fading ch') = ofR (INR (t_nb ch) * INR (r_nb ch)) /\ energy_of (m_rows (f_mean (m_fading ch'))) = 0%R /\ t_nb ch' = t_nb ch /\ r_nb ch' = r_nb ch) /\
    (forall t r bt br, t <> C0 -> r <> C0 -> (Cabs t <= 1 + 1 / 10000)%R -> (Cabs r <= 1 + 1 / 10000)%R -> (0 <= bt)%R -> (0 <= br)%R ->
       exists ch', expo_rayleigh ch t r bt br = (ch', Ok tt) /\ m_complex ch' = true /\ total_energy (t_nb ch) (r_nb ch) (m_fading ch') = ofR (INR (t_nb ch) * INR (r_nb ch)) /\ energy_of (m_rows (f_mean (m_fading ch'))) = 0%R /\
         (forall i j, (i < t_nb ch)%nat -> (j < t_nb ch)%nat -> entry (f_rt (m_fading ch')) i j = (CpowZ t (Z.of_nat j - Z.of_nat i) * ofR (exp (- bt * Rabs (INR j - INR i))))%C) /\
         (forall i j, (i < r_nb ch)%nat -> (j < r_nb ch)%nat -> entry (f_rr (m_fading ch')) i j = (CpowZ r (Z.of_nat j - Z.of_nat i) * ofR (exp (- br * Rabs (INR j - INR i))))%C)) /\
    (exists ch', mimo_init (t_nb ch) (r_nb ch) None None = Ok ch' /\ m_complex ch' = false /\ total_energy (t_nb ch) (r_nb ch) (m_fading ch') = ofR (INR (t_nb ch) * INR (r_nb ch))).
Proof. exact C52_rayleigh_proof. Qed.
Print Assumptions C52_rayleigh.

Theorem C52_rician :
(* the Rician setters: nonzero mean of the right shape, k-factor at least 0: accepted, exactly normalised, the mean is a nonnegative
     multiple of the given one and the k_factor attribute is the requested number *)
  forall (ch : mimo) (mean : fmat) (k : R), (1 <= t_nb ch)%nat -> (1 <= r_nb ch)%nat -> shape (r_nb ch) (t_nb ch) (m_rows mean) -> m_nan mean = false -> energy_of (m_rows mean) <> 0%R -> (0 <= k)%R ->
    let good (o : mimo * res unit) := exists ch' s, o = (ch', Ok tt) /\ total_energy (t_nb ch) (r_nb ch) (m_fading ch') = ofR (INR (t_nb ch) * INR (r_nb ch)) /\ mimo_k ch' = ofR k /\ (0 <= s)%R /\ m_rows (f_mean (m_fading ch')) = map (map (Cscale s)) (m_rows mean) /\ m_complex ch' = m_cplx mean in
    good (uncorr_rician ch mean k) /\ forall t r bt br, t <> C0 -> r <> C0 -> (Cabs t <= 1 + 1 / 10000)%R -> (Cabs r <= 1 + 1 / 10000)%R -> (0 <= bt)%R -> (0 <= br)%R -> good (expo_rician ch mean k t r bt br).
Proof. exact C52_rician_proof. Qed.
Print Assumptions C52_rician.

Theorem C52_rejected :
(* ValueError, channel unchanged, when |t| or |r| exceeds 1 by more than 1e-4; k = -1: ZeroDivisionError; the setter rejects a wrong energy *)
  forall (ch : mimo) (mean : fmat) (k : R) (t r : C) (bt br : R) (f : fading),
    ((1 + 1 / 10000 < Cabs t)%R \/ (1 + 1 / 10000 < Cabs r)%R -> expo_rayleigh ch t r bt br = (ch, Err ValueError) /\ expo_rician ch mean k t r bt br = (ch, Err ValueError)) /\
    uncorr_rician ch mean (-1) = (ch, Err ZeroDivisionError) /\
    (m_nan (f_mean f) = false -> shape (t_nb ch) (t_nb ch) (f_rt f) -> shape (r_nb ch) (r_nb ch) (f_rr f) -> (1 / 1000 < Cabs (total_energy (t_nb ch) (r_nb ch) f - ofR (INR (t_nb ch) * INR (r_nb ch)))%C)%R -> mimo_set ch f = (ch, Err ValueError)).
Proof. exact C52_rejected_proof. Qed.
Print Assumptions C52_rejected.

Theorem C52_wrong_mean :
(* a mean with the wrong number of entries, k-factor above 1/999: both Rician setters raise ValueError and leave the channel unchanged *)
  forall (ch : mimo) (mean : fmat) (k : R) (a b : nat) (t r : C) (bt br : R), (1 <= t_nb ch)%nat -> (1 <= r_nb ch)%nat -> shape a b (m_rows mean) -> m_nan mean = false -> energy_of (m_rows mean) <> 0%R -> (a * b <> t_nb ch * r_nb ch)%nat -> (1 / 999 < k)%R -> t <> C0 -> r <> C0 ->
    uncorr_rician ch mean k = (ch, Err ValueError) /\ expo_rician ch mean k t r bt br = (ch, Err ValueError).
Proof. exact C52_wrong_mean_proof. Qed.
Print Assumptions C52_wrong_mean.
Example C52_wrong_mean_witness : shape 1 2 [[C1; Ci]] /\ energy_of [[C1; Ci]] <> 0%R /\ (1 * 2 <> 2 * 3)%nat.
Proof. split; [split; [reflexivity|repeat constructor]|]. split; [|lia]. unfold energy_of, Rsum, Cnorm2. cbn. lra. Qed.

Theorem C52_constructor :
(* the constructor: the object holds the given antenna counts, noise level and fading parameters and nothing has been propagated yet;
     unnormalised parameters raise ValueError; the default parameters are the uncorrelated real Rayleigh ones *)
  forall (tx rx : nat) (std : option R), (1 <= tx)%nat -> (1 <= rx)%nat ->
    (forall f, m_nan (f_mean f) = false -> shape rx tx (m_rows (f_mean f)) -> shape tx tx (f_rt f) -> shape rx rx (f_rr f) ->
       ((Cabs (total_energy tx rx f - ofR (INR tx * INR rx))%C <= 1 / 1000)%R ->
          exists ch, mimo_init tx rx std (Some f) = Ok ch /\ t_nb ch = tx /\ r_nb ch = rx /\ m_std ch = option_map Some std /\ m_fading ch = f /\ m_complex ch = m_cplx (f_mean f) /\ m_noises ch = None /\ m_gains ch = None /\ m_unnoisy ch = None) /\
       ((1 / 1000 < Cabs (total_energy tx rx f - ofR (INR tx * INR rx))%C)%R -> mimo_init tx rx std (Some f) = Err ValueError)) /\
    exists ch f, mimo_init tx rx std None = Ok ch /\ t_nb ch = tx /\ r_nb ch = rx /\ m_std ch = option_map Some std /\ m_fading ch = f /\ m_complex ch = false /\ m_noises ch = None /\ m_gains ch = None /\ m_unnoisy ch = None /\
      m_nan (f_mean f) = false /\ (forall j i, (j < rx)%nat -> (i < tx)%nat -> entry (m_rows (f_mean f)) j i = C0) /\ (forall i j, (i < tx)%nat -> (j < tx)%nat -> entry (f_rt f) i j = if (i =? j)%nat then C1 else C0) /\ (forall i j, (i < rx)%nat -> (j < rx)%nat -> entry (f_rr f) i j = if (i =? j)%nat then C1 else C0).
Proof. exact C52_constructor_proof. Qed.
Print Assumptions C52_constructor.
Example C52_constructor_witness : (1 <= 2)%nat /\ (Cabs (total_energy 1 1 {| f_mean := plain [[C1]] false; f_rt := [[C0]]; f_rr := [[C1]] |} - ofR (INR 1 * INR 1))%C <= 1 / 1000)%R.
Proof.
  split; [lia|]. unfold total_energy, diag_sum, energy_of, Csum, Rsum. cbn [f_mean f_rt f_rr plain m_rows seq map fold_right entry nth hd].
  match goal with |- (Cabs ?x <= _)%R => replace x with C0 end. unfold Cabs, Cnorm2, C0; cbn [re im]. rewrite Rmult_0_l, Rplus_0_r, sqrt_0; lra. unfold entry, Cnorm2. cbn. unfold Cmul, Cadd, Csub, Copp, ofR. cbn. unfold C0. f_equal; lra.
Qed.

Theorem C52_failed_call_refuted :
(* a failed call may change the channel: a negative beta raises ValueError after the fading parameters have been replaced *)
  ~ (forall (ch ch' : mimo) (o : mimo_op) (e : exn), mimo_do ch o = (ch', Err e) -> ch' = ch)
  /\ forall (ch : mimo) (t r : C) (bt br : R), (1 <= t_nb ch)%nat -> (1 <= r_nb ch)%nat -> t <> C0 -> r <> C0 -> (Cabs t <= 1 + 1 / 10000)%R -> (Cabs r <= 1 + 1 / 10000)%R -> (bt < 0 \/ br < 0)%R ->
       exists ch', expo_rayleigh ch t r bt br = (ch', Err ValueError) /\ m_complex ch' = true /\ forall i j, (i < t_nb ch)%nat -> (j < t_nb ch)%nat -> entry (f_rt (m_fading ch')) i j = CpowZ t (Z.of_nat j - Z.of_nat i).
Proof. exact C52_failed_call_refuted_proof. Qed.
Print Assumptions C52_failed_call_refuted.

Theorem C52_nan_mean :
(* a zero mean, or -1 < k < 0: the scaled mean is NaN and it is accepted, because comparisons with NaN are false *)
  forall (ch : mimo) (mean : fmat) (k : R), (1 <= t_nb ch)%nat -> (1 <= r_nb ch)%nat -> shape (r_nb ch) (t_nb ch) (m_rows mean) -> m_nan mean = false -> energy_of (m_rows mean) = 0%R \/ (-1 < k < 0)%R -> k <> (-1)%R ->
    exists ch', uncorr_rician ch mean k = (ch', Ok tt) /\ m_nan (f_mean (m_fading ch')) = true.
Proof. exact C52_nan_mean_proof. Qed.
Print Assumptions C52_nan_mean.

Theorem C52_mean_gain :
(* the expected energy of every channel matrix drawn by propagate is the energy of the parameters, for any roots sr, st of the correlation matrices *)
  forall (ch : mimo) (sqrtm : list (list C) -> list (list C) * bool) (msg : list C) (mc : bool) (s : R) (W : Type) (E : (W -> R) -> R) (n1 n2 : nat -> nat -> W -> R) (z : bool * (nat * (nat * nat)) -> W -> R),
    let tx := t_nb ch in let rx := r_nb ch in let f := m_fading ch in
    (1 <= tx)%nat -> msg <> [] -> (mc = true -> m_complex ch = true) -> m_std ch = Some (Some s) -> (m_complex ch = false -> snd (sqrtm (f_rr f)) = false /\ snd (sqrtm (f_rt f)) = false) -> m_nan (f_mean f) = false ->
    shape rx tx (m_rows (f_mean f)) -> root_of rx (f_rr f) (fst (sqrtm (f_rr f))) -> root_of tx (f_rt f) (fst (sqrtm (f_rt f))) -> expectation E ->
    exists G : W -> list (list (list C)),
      (forall w, exists ch' out, mimo_propagate sqrtm ch msg mc (fun a i => n1 a i w) (fun a i => n2 a i w) (fun a j k => z (true, (a, (j, k))) w) (fun a j k => z (false, (a, (j, k))) w) = (ch', Ok out) /\ m_gains ch' = Some (Num (G w)) /\ length (G w) = ((length msg + tx - 1) / tx)%nat) /\
      forall a, (a < (length msg + tx - 1) / tx)%nat -> white E (list_prod [true; false] (list_prod [a] (list_prod (seq 0 rx) (seq 0 tx)))) z -> E (fun w => energy_of (nth a (G w) [])) = re (total_energy tx rx f).
Proof. exact C52_mean_gain_proof. Qed.
Print Assumptions C52_mean_gain.
Example C52_witness : (exists ch, mimo_init 2 3 None None = Ok ch) /\ root_of 2 (identity 2) (identity 2) /\ energy_of [[C1; Ci]] <> 0%R.
Proof.
  split; [|split].
  - destruct (C52_rayleigh {| t_nb := 2; r_nb := 3; m_std := None; m_fading := {| f_mean := plain [] false; f_rt := []; f_rr := [] |}; m_complex := false; m_noises := None; m_gains := None; m_unnoisy := None |} ltac:(cbn; lia) ltac:(cbn; lia)) as (_ & _ & ch & E & _). exists ch. exact E.
  - split; [split; [reflexivity|repeat constructor]|]. intros i i' Hi Hi'. destruct i as [|[|i]], i' as [|[|i']]; try lia; cbn; creal.
  - unfold energy_of, Cnorm2. cbn. lra.
Qed.

(* ---------------------------------------------------------------- C53 *)

Theorem C53_dB_lin :
(* set_SNR_dB(s) is set_SNR_lin(10 ** (s / 10)) *)
  forall (cs : siso) (cm : mimo) (snr rate es : R),
    siso_do cs (SSnrDB snr rate es) = siso_do cs (SSnrLin (Rpower 10 (snr / 10)) rate es) /\ mimo_do cm (MSnrDB snr rate es) = mimo_do cm (MSnrLin (Rpower 10 (snr / 10)) rate es).
Proof. exact C53_dB_lin_proof. Qed.
Print Assumptions C53_dB_lin.

Theorem C53_siso_noise :
(* SISO: after set_SNR_lin the mean power of each noise sample of propagate is Es / (rate SNR), for real and for complex channels *)
  forall (ch : siso) (snr rate es : R) (msg : list C) (mc : bool) (W : Type) (E : (W -> R) -> R) (n1 n2 : nat -> W -> R) g1 g2, (0 < snr)%R -> (0 < rate)%R -> (0 <= es)%R -> msg <> [] -> (mc = true -> s_complex ch = true) -> expectation E ->
    exists ch1 (eta : W -> list C), siso_do ch (SSnrLin snr rate es) = (ch1, Ok tt) /\
      (forall w, s_noises (fst (siso_propagate ch1 msg mc (fun i => n1 i w) (fun i => n2 i w) g1 g2)) = Some (Num (eta w)) /\ length (eta w) = length msg) /\
      forall i, (i < length msg)%nat -> white E [true; false] (fun b : bool => if b then n1 i else n2 i) -> E (fun w => Cnorm2 (nth i (eta w) C0)) = (es / (rate * snr))%R.
Proof. exact C53_siso_noise_proof. Qed.
Print Assumptions C53_siso_noise.

Theorem C53_mimo_noise :
(* MIMO: nb_tx Es / (rate SNR) on every receive antenna *)
  forall (ch : mimo) (snr rate es : R) (msg : list C) (mc : bool) sqrtm (W : Type) (E : (W -> R) -> R) (n1 n2 : nat -> nat -> W -> R) g1 g2, (0 < snr)%R -> (0 < rate)%R -> (0 <= es)%R -> msg <> [] -> (mc = true -> m_complex ch = true) -> (1 <= t_nb ch)%nat -> expectation E ->
    exists ch1 (eta : W -> list (list C)), mimo_do ch (MSnrLin snr rate es) = (ch1, Ok tt) /\
      (forall w, m_noises (fst (mimo_propagate sqrtm ch1 msg mc (fun a i => n1 a i w) (fun a i => n2 a i w) g1 g2)) = Some (Num (eta w))) /\
      forall a i, (a < (length msg + t_nb ch - 1) / t_nb ch)%nat -> (i < r_nb ch)%nat -> white E [true; false] (fun b : bool => if b then n1 a i else n2 a i) -> E (fun w => Cnorm2 (entry (eta w) a i)) = (INR (t_nb ch) * es / (rate * snr))%R.
Proof. exact C53_mimo_noise_proof. Qed.
Print Assumptions C53_mimo_noise.

Theorem C53_noise_std :
(* assigning noise_std = s sets the level of the noise and nothing else: the mean power of a noise sample is s^2 on a real channel and
     s^2 / 2 on a complex one; noise_std = None makes propagate raise AssertionError *)
  forall (ch : siso) (s : R) (msg : list C) (mc : bool) (W : Type) (E : (W -> R) -> R) (n1 n2 : nat -> W -> R) g1 g2, msg <> [] -> (mc = true -> s_complex ch = true) -> expectation E ->
    (exists ch1 (eta : W -> list C), siso_do ch (SStd (Some s)) = (ch1, Ok tt) /\ s_fading ch1 = s_fading ch /\ s_complex ch1 = s_complex ch /\ s_noises ch1 = s_noises ch /\ s_gains ch1 = s_gains ch /\ s_unnoisy ch1 = s_unnoisy ch /\
      (forall w, s_noises (fst (siso_propagate ch1 msg mc (fun i => n1 i w) (fun i => n2 i w) g1 g2)) = Some (Num (eta w)) /\ length (eta w) = length msg) /\
      forall i, (i < length msg)%nat -> white E [true; false] (fun b : bool => if b then n1 i else n2 i) -> E (fun w => Cnorm2 (nth i (eta w) C0)) = (if s_complex ch then s * s / 2 else s * s)%R) /\
    exists ch1, siso_do ch (SStd None) = (ch1, Ok tt) /\ s_fading ch1 = s_fading ch /\ forall w, snd (siso_propagate ch1 msg mc (fun i => n1 i w) (fun i => n2 i w) g1 g2) = Err AssertionError.
Proof. exact C53_noise_std_proof. Qed.
Print Assumptions C53_noise_std.

Theorem C53_noise_std_mimo :
(* the same for MIMO channels, on every receive antenna *)
  forall (ch : mimo) (s : R) (msg : list C) (mc : bool) sqrtm (W : Type) (E : (W -> R) -> R) (n1 n2 : nat -> nat -> W -> R) g1 g2, msg <> [] -> (mc = true -> m_complex ch = true) -> (1 <= t_nb ch)%nat -> expectation E ->
    (exists ch1 (eta : W -> list (list C)), mimo_do ch (MStd (Some s)) = (ch1, Ok tt) /\ m_fading ch1 = m_fading ch /\ m_complex ch1 = m_complex ch /\ t_nb ch1 = t_nb ch /\ r_nb ch1 = r_nb ch /\
      (forall w, m_noises (fst (mimo_propagate sqrtm ch1 msg mc (fun a i => n1 a i w) (fun a i => n2 a i w) g1 g2)) = Some (Num (eta w))) /\
      forall a i, (a < (length msg + t_nb ch - 1) / t_nb ch)%nat -> (i < r_nb ch)%nat -> white E [true; false] (fun b : bool => if b then n1 a i else n2 a i) -> E (fun w => Cnorm2 (entry (eta w) a i)) = (if m_complex ch then s * s / 2 else s * s)%R) /\
    exists ch1, mimo_do ch (MStd None) = (ch1, Ok tt) /\ m_fading ch1 = m_fading ch /\ forall w, snd (mimo_propagate sqrtm ch1 msg mc (fun a i => n1 a i w) (fun a i => n2 a i w) g1 g2) = Err AssertionError.
Proof. exact C53_noise_std_mimo_proof. Qed.
Print Assumptions C53_noise_std_mimo.

Theorem C53_type_change :
(* the noise level is not adapted when the channel later changes between real and complex: for the same noise_std the mean noise power of a
     complex channel is half that of a real one *)
  forall (s : R) (W : Type) (E : (W -> R) -> R) (a b : W -> R), expectation E -> white E [true; false] (fun x : bool => if x then a else b) ->
    (E (fun w => Cnorm2 (noise false s (a w) (b w))) = 2 * E (fun w => Cnorm2 (noise true s (a w) (b w))))%R /\
    forall (ch : mimo) (cplx : bool), m_std (fst (mimo_do ch (MRayleigh cplx))) = m_std ch.
Proof. exact C53_type_change_proof. Qed.
Print Assumptions C53_type_change.

Theorem C53_awgn :
(* awgn: output = input + noise, mean noise power = mean signal power / (rate SNR), real or complex *)
  forall (sg : list C) (cplx : bool) (snr rate : R) (W : Type) (E : (W -> R) -> R) (a b : nat -> W -> R), sg <> [] -> (0 < rate)%R -> expectation E ->
    exists eta : nat -> W -> C, (forall w, awgn sg cplx snr rate (fun i => a i w) (fun i => b i w) = Ok (Num (map (fun i => (nth i sg C0 + eta i w)%C) (seq 0 (length sg))))) /\
      forall i, white E [true; false] (fun x : bool => if x then a i else b i) -> E (fun w => Cnorm2 (eta i w)) = (Rsum (map Cnorm2 sg) / INR (length sg) / (rate * Rpower 10 (snr / 10)))%R.
Proof. exact C53_awgn_proof. Qed.
Print Assumptions C53_awgn.
Example C53_witness : expectation two_signs /\ white two_signs [true; false] (fun b w => if b then sign (fst w) else sign (snd w)) /\ (0 < 2)%R.
Proof. split; [exact two_signs_expectation|]. split; [exact two_signs_white|lra]. Qed.

(* ---------------------------------------------------------------- C54 *)

Theorem C54_propagate :
(* vector number a of the message, completed with zeros, is multiplied by its own channel matrix; the noise is added *)
  forall (ch : mimo) (sqrtm : list (list C) -> list (list C) * bool) (msg : list C) (mc : bool) (s : R) n1 n2 g1 g2, let tx := t_nb ch in let rx := r_nb ch in let f := m_fading ch in
    (1 <= tx)%nat -> msg <> [] -> (mc = true -> m_complex ch = true) -> m_std ch = Some (Some s) -> (m_complex ch = false -> snd (sqrtm (f_rr f)) = false /\ snd (sqrtm (f_rt f)) = false) -> m_nan (f_mean f) = false ->
    exists ch' out gains unnoisy eta, mimo_propagate sqrtm ch msg mc n1 n2 g1 g2 = (ch', Ok (Num out)) /\ m_gains ch' = Some (Num gains) /\ m_unnoisy ch' = Some (Num unnoisy) /\ m_noises ch' = Some (Num eta) /\
      let nb := ((length msg + tx - 1) / tx)%nat in length gains = nb /\ shape nb rx out /\ shape nb rx unnoisy /\ shape nb rx eta /\ m_fading ch' = f /\
      forall a, (a < nb)%nat -> shape rx tx (nth a gains []) /\ forall i, (i < rx)%nat ->
        entry unnoisy a i = apply_row (nth i (nth a gains []) []) (map (fun k => nth (a * tx + k) msg C0) (seq 0 tx)) /\ entry out a i = (entry unnoisy a i + entry eta a i)%C /\ (s = 0%R -> entry out a i = entry unnoisy a i).
Proof. exact C54_propagate_proof. Qed.
Print Assumptions C54_propagate.

Theorem C54_errors :
forall (ch : mimo) (sqrtm : list (list C) -> list (list C) * bool) (m : C) (msg : list C) (mc : bool) n1 n2 g1 g2,
    mimo_propagate sqrtm ch [] mc n1 n2 g1 g2 = (ch, Err IndexError) /\ (m_complex ch = false -> mimo_propagate sqrtm ch (m :: msg) true n1 n2 g1 g2 = (ch, Err TypeError)) /\
    (m_std ch = None -> (1 <= t_nb ch)%nat -> (mc = true -> m_complex ch = true) -> mimo_propagate sqrtm ch (m :: msg) mc n1 n2 g1 g2 = (ch, Err AssertionError)).
Proof. exact C54_errors_proof. Qed.
Print Assumptions C54_errors.
Example C54_witness : exists ch, mimo_init 2 2 (Some 1%R) None = Ok ch /\ m_std ch = Some (Some 1%R) /\ t_nb ch = 2%nat /\ m_nan (f_mean (m_fading ch)) = false /\ ((5 + 2 - 1) / 2 = 3)%nat.
Proof. destruct (default_init 2 2 1%R ltac:(lia) ltac:(lia)) as (ch & A & B & C & D). exists ch. auto. Qed.

(* ---------------------------------------------------------------- C64 *)

Theorem C64_valid_correlation :
(* for |t| = |r| = 1 and nonnegative betas the correlation matrices are Hermitian and positive, as a matrix square root needs *)
  forall (ch : mimo) (t r : C) (bt br : R), (1 <= t_nb ch)%nat -> (1 <= r_nb ch)%nat -> Cabs t = 1%R -> Cabs r = 1%R -> (0 <= bt)%R -> (0 <= br)%R ->
    let good (o : mimo * res unit) := exists ch', o = (ch', Ok tt) /\ hermitian (t_nb ch) (f_rt (m_fading ch')) /\ positive (t_nb ch) (f_rt (m_fading ch')) /\ hermitian (r_nb ch) (f_rr (m_fading ch')) /\ positive (r_nb ch) (f_rr (m_fading ch')) in
    good (expo_rayleigh ch t r bt br) /\
    forall (mean : fmat) (k : R), shape (r_nb ch) (t_nb ch) (m_rows mean) -> m_nan mean = false -> energy_of (m_rows mean) <> 0%R -> (0 <= k)%R -> good (expo_rician ch mean k t r bt br).
Proof. exact C64_valid_correlation_proof. Qed.
Print Assumptions C64_valid_correlation.

Theorem C64_small_t_refuted :
(* |t| < 1 is accepted although documented as an error; the transmit correlation matrix is then not Hermitian and has entries above 1 *)
  ~ (forall (ch ch' : mimo) (t r : C), (1 <= t_nb ch)%nat -> (1 <= r_nb ch)%nat -> expo_rayleigh ch t r 0 0 = (ch', Ok tt) -> Cabs t = 1%R)
  /\ exists (ch ch' : mimo) (t r : C), expo_rayleigh ch t r 0 0 = (ch', Ok tt) /\ ~ hermitian (t_nb ch) (f_rt (m_fading ch')) /\ entry (f_rt (m_fading ch')) 1 0 = ofR 2.
Proof. exact C64_small_t_refuted_proof. Qed.
Print Assumptions C64_small_t_refuted.

Theorem C64_specular :
(* specular_compo: every entry has magnitude 1, so its energy is nb_rx nb_tx; a negative distance raises ValueError *)
  forall (ch : mimo) (thetat dt thetar dr : R),
    ((0 <= dt)%R -> (0 <= dr)%R -> exists H, specular_compo ch thetat dt thetar dr = Ok H /\ shape (r_nb ch) (t_nb ch) H /\ energy_of H = (INR (r_nb ch) * INR (t_nb ch))%R /\
       forall n m, (n < r_nb ch)%nat -> (m < t_nb ch)%nat -> entry H n m = cis (2 * PI * (INR n * dr * cos thetar + INR m * dt * cos thetat))) /\
    (dt < 0 \/ dr < 0 -> specular_compo ch thetat dt thetar dr = Err ValueError)%R.
Proof. exact C64_specular_proof. Qed.
Print Assumptions C64_specular.
Example C64_witness : Cabs Ci = 1%R /\ Cabs C1 = 1%R.
Proof. unfold Cabs, Cnorm2. cbn. split; match goal with |- sqrt ?x = _ => replace x with 1%R by ring end; apply sqrt_1. Qed.

(* Proofs of the channel properties C50-C54, C64. *)
From Verif Require Import Base UtilModel UtilProofs Cplx ModemModel ModemProofs MimoModel MimoSpec MimoProofs ChannelModel ChannelSpec ChannelProofs ChannelFading ChannelCorr ChannelRun ChannelHist.
Open Scope Z_scope.

Lemma nth_app_last : forall {A} (l : list A) x d, nth (length l) (l ++ [x]) d = x.
Proof. intros A l x d. rewrite app_nth2 by lia. rewrite Nat.sub_diag. reflexivity. Qed.
Lemma fresh_write : forall (mem : memory) x y, let mem' := upd (mem ++ [x]) (length mem) y in nth (length mem) mem' [] = y /\ forall r, (r < length mem)%nat -> nth r mem' [] = nth r mem [].
Proof.
  intros mem x y mem'. split; [apply nth_upd_eq; rewrite app_length; cbn; lia|]. intros r Hr. unfold mem'. rewrite nth_upd_neq by lia. apply app_nth1. exact Hr.
Qed.
Lemma combine_nth_pair : forall {A B} (l : list A) (l' : list B) i a b, length l = length l' -> nth i (combine l l') (a, b) = (nth i l a, nth i l' b).
Proof. intros. apply combine_nth. assumption. Qed.
(* SISO *)
Definition siso_ok (ch : siso) : Prop := let '(mean, cplx, var) := s_fading ch in (var + Cnorm2 mean = 1)%R /\ s_complex ch = cplx.
Lemma siso_set_ok : forall ch f, siso_ok ch -> siso_ok (fst (siso_set ch f)).
Proof. intros ch [[mean cplx] var] H. unfold siso_set. destruct (Req_EM_T _ 1) as [E|E]; [|exact H]. rewrite Cabs_sqr in E. cbn. auto. Qed.
Lemma siso_do_ok : forall ch o, siso_ok ch -> siso_ok (fst (siso_do ch o)).
Proof.
  intros ch o H. destruct o as [f|s|snr rate es|snr rate es|msg c n1 n2 g1 g2]; cbn [siso_do].
  - apply siso_set_ok, H.
  - exact H.
  - destruct (snr_lin _ _ _ _ _); exact H.
  - destruct (snr_dB _ _ _ _ _); exact H.
  - destruct (siso_propagate ch msg c n1 n2 g1 g2) as [ch' r] eqn:E. cbn [fst]. unfold siso_propagate in E. destruct msg as [|m0 ms]; [injection E as <- _; exact H|]. destruct (_ && _); [injection E as <- _; exact H|]. destruct (s_std ch) as [sd|]; [|injection E as <- _; exact H]. destruct (s_fading ch) as [[mean cplx] var] eqn:F. injection E as <- _. unfold siso_ok in *. cbn [s_fading s_complex]. rewrite F in H. exact H.
Qed.
Lemma siso_init_ok : forall s f ch, siso_init s f = Ok ch -> siso_ok ch.
Proof.
  intros s [[mean cplx] var] ch H. unfold siso_init, siso_set in H. destruct (Req_EM_T _ 1) as [E|E]; [|discriminate]. injection H as <-. rewrite Cabs_sqr in E. cbn. auto.
Qed.
(* MIMO *)
Definition mimo_ok (ch : mimo) : Prop := m_nan (f_mean (m_fading ch)) = true \/ (Cabs (nlos (m_fading ch) + ofR (los (m_fading ch)) - ofR (INR (t_nb ch) * INR (r_nb ch)))%C <= 1 / 1000)%R.
Lemma mimo_set_ok : forall ch f, mimo_ok ch -> mimo_ok (fst (mimo_set ch f)) /\ t_nb (fst (mimo_set ch f)) = t_nb ch /\ r_nb (fst (mimo_set ch f)) = r_nb ch.
Proof.
  intros ch f H. unfold mimo_set. destruct (m_nan (f_mean f)) eqn:En; cbn [negb andb].
  - destruct (m_rows (f_mean f)) as [|[|z row] rows]; cbn [fst mimo_with t_nb r_nb]; (split; [left; exact En|auto]).
  - destruct (Rlt_dec _ _) as [Hl|Hl]; [cbn [fst]; auto|]. destruct (m_rows (f_mean f)) as [|[|z row] rows]; cbn [fst mimo_with t_nb r_nb]; (split; [right; cbn [mimo_with m_fading t_nb r_nb]; lra|auto]).
Qed.
Lemma then_ok : forall r k, mimo_ok (fst r) -> (forall c, mimo_ok c -> t_nb c = t_nb (fst r) -> mimo_ok (fst (k c)) /\ t_nb (fst (k c)) = t_nb c /\ r_nb (fst (k c)) = r_nb c) -> mimo_ok (fst (then_do r k)) /\ t_nb (fst (then_do r k)) = t_nb (fst r) /\ r_nb (fst (then_do r k)) = r_nb (fst r).
Proof. intros [c [u|e]] k H K; cbn [then_do fst] in *; [apply K; auto|auto]. Qed.
Lemma kbsm_inv : forall ch bt br, mimo_ok ch -> mimo_ok (fst (update_KBSM ch bt br)) /\ t_nb (fst (update_KBSM ch bt br)) = t_nb ch /\ r_nb (fst (update_KBSM ch bt br)) = r_nb ch.
Proof. intros ch bt br H. unfold update_KBSM. destruct (_ || _); [cbn; auto|]. apply mimo_set_ok, H. Qed.
Lemma then_kbsm : forall ch f bt br, mimo_ok ch -> mimo_ok (fst (then_do (mimo_set ch f) (fun c => update_KBSM c bt br))) /\ t_nb (fst (then_do (mimo_set ch f) (fun c => update_KBSM c bt br))) = t_nb ch /\ r_nb (fst (then_do (mimo_set ch f) (fun c => update_KBSM c bt br))) = r_nb ch.
Proof.
  intros ch f bt br H. destruct (mimo_set_ok ch f H) as (A & B & D). destruct (then_ok (mimo_set ch f) (fun c => update_KBSM c bt br) A) as (X & Y & Z); [intros c Hc _; apply kbsm_inv, Hc|]. rewrite Y, Z. auto.
Qed.
Lemma mimo_do_ok : forall ch o, mimo_ok ch -> mimo_ok (fst (mimo_do ch o)) /\ t_nb (fst (mimo_do ch o)) = t_nb ch /\ r_nb (fst (mimo_do ch o)) = r_nb ch.
Proof.
  intros ch o H. destruct o as [f|s|snr rate es|snr rate es|c|t r bt br|mean k|mean k t r bt br|sq msg c n1 n2 g1 g2]; cbn [mimo_do].
  - apply mimo_set_ok, H.
  - auto.
  - destruct (snr_lin _ _ _ _ _); auto.
  - destruct (snr_dB _ _ _ _ _); auto.
  - apply mimo_set_ok, H.
  - unfold expo_rayleigh. destruct (too_big t); [auto|]. destruct (too_big r); [auto|]. apply then_kbsm, H.
  - unfold uncorr_rician. destruct (Req_EM_T _ _); [auto|]. apply mimo_set_ok, H.
  - unfold expo_rician. destruct (too_big t); [auto|]. destruct (too_big r); [auto|]. destruct (Req_EM_T _ _); [auto|]. apply then_kbsm, H.
  - destruct (mimo_propagate sq ch msg c n1 n2 g1 g2) as [ch' r] eqn:E. cbn [fst]. unfold mimo_propagate in E. destruct msg as [|m0 ms]; [injection E as <- _; auto|]. destruct (_ && _); [injection E as <- _; auto|]. destruct (_ =? 0)%nat; [injection E as <- _; auto|]. destruct (m_std ch) as [sd|]; [|injection E as <- _; auto].
    destruct (sq _) as [sr sc]. destruct (sq _) as [st tc]. destruct (_ && _); [injection E as <- _; auto|]. destruct (m_nan (f_mean (m_fading ch))); injection E as <- _; auto.
Qed.
Definition two_signs (f : bool * bool -> R) : R := ((f (true, true) + f (true, false) + f (false, true) + f (false, false)) / 4)%R.
Definition sign (b : bool) : R := if b then 1%R else (-1)%R.
Lemma two_signs_expectation : expectation two_signs.
Proof. split; unfold two_signs; intros; rewrite ?H; field. Qed.
Lemma two_signs_white : white two_signs [true; false] (fun (i : bool) w => if i then sign (fst w) else sign (snd w)).
Proof.
  split; [|split].
  - intros [] _; unfold two_signs, sign; cbn; lra.
  - intros [] _; unfold two_signs, sign; cbn; lra.
  - intros [] [] _ _ H; try congruence; unfold two_signs, sign; cbn; lra.
Qed.
Lemma snr_std : forall c t snr rate es s, (0 < snr)%R -> (0 < rate)%R -> (0 <= es)%R -> snr_lin c t snr rate es = Ok (Some s) ->
  exists x, s = Some x /\ ((if c then x * x / 2 else x * x) = INR t * es / (rate * snr))%R.
Proof.
  intros c t snr rate es s Hs Hr He H. unfold snr_lin in H. assert (P : (0 < rate * snr)%R) by (apply Rmult_lt_0_compat; assumption). destruct (Req_EM_T _ 0); [lra|]. injection H as <-. unfold np_sqrt.
  assert (Q : (0 <= ((if c then 1 else 0) + 1) * INR t * es / (rate * snr))%R). { apply Rmult_le_pos; [apply Rmult_le_pos; [apply Rmult_le_pos; [destruct c; lra|apply pos_INR]|exact He]|]. apply Rlt_le, Rinv_0_lt_compat, P. }
  destruct (Rlt_dec _ 0); [lra|]. eexists. split; [reflexivity|]. rewrite sqrt_sqrt by exact Q. destruct c; field; lra.
Qed.
Lemma Rpower_pos : forall x y, (0 < Rpower x y)%R. Proof. intros. apply exp_pos. Qed.
Lemma default_init : forall tx rx s, (1 <= tx)%nat -> (1 <= rx)%nat -> exists ch, mimo_init tx rx (Some s) None = Ok ch /\ m_std ch = Some (Some s) /\ t_nb ch = tx /\ m_nan (f_mean (m_fading ch)) = false.
Proof.
  intros tx rx s Ht Hr. unfold mimo_init. set (b := {| t_nb := _ |}). pose proof (rayleigh_ok b Ht Hr false) as E. unfold uncorr_rayleigh in E. change (t_nb b) with tx in E. change (r_nb b) with rx in E. rewrite E. eexists. split; [reflexivity|]. auto.
Qed.

Lemma C50_bec_proof :
(* a new array; an entry is erased exactly where the draw is at most p_e; every existing array is unchanged *)
  forall (mem : memory) (a : nat) (p : R) (draws : list R), (a < length mem)%nat -> length draws = length (nth a mem []) ->
    exists mem' out, bec mem a p draws = (mem', out) /\ (length mem <= out)%nat /\ (forall r, (r < length mem)%nat -> nth r mem' [] = nth r mem []) /\ length (nth out mem' []) = length draws /\
      forall i, (i < length draws)%nat -> ((nth i draws 0 <= p)%R -> nth i (nth out mem' []) 0 = -1) /\ ((p < nth i draws 0)%R -> nth i (nth out mem' []) 0 = nth i (nth a mem []) 0).
Proof.
  intros mem a p draws Ha HL. unfold bec. eexists _, _. split; [reflexivity|]. rewrite nth_app_last. destruct (fresh_write mem (nth a mem []) (map (fun bu => if Rle_dec (snd bu) p then -1 else fst bu) (combine (nth a mem []) draws))) as (F1 & F2). rewrite F1. split; [lia|]. split; [exact F2|].
  split; [rewrite map_length, combine_length; lia|]. intros i Hi. rewrite (nth_map_lt _ _ _ (0, 0%R) 0) by (rewrite combine_length; lia). rewrite combine_nth_pair by lia. cbn [fst snd]. destruct (Rle_dec (nth i draws 0%R) p); split; intros; lra || reflexivity.
Qed.

Lemma C50_bsc_proof :
(* bits: flipped exactly where the draw is at most p_t *)
  forall (mem : memory) (a : nat) (p : R) (draws : list R), (a < length mem)%nat -> length draws = length (nth a mem []) -> bits (nth a mem []) ->
    exists mem' out, bsc mem a p draws = (mem', out) /\ (length mem <= out)%nat /\ (forall r, (r < length mem)%nat -> nth r mem' [] = nth r mem []) /\ length (nth out mem' []) = length draws /\
      forall i, (i < length draws)%nat -> ((nth i draws 0 <= p)%R -> nth i (nth out mem' []) 0 = 1 - nth i (nth a mem []) 0) /\ ((p < nth i draws 0)%R -> nth i (nth out mem' []) 0 = nth i (nth a mem []) 0).
Proof.
  intros mem a p draws Ha HL HB. unfold bsc. eexists _, _. split; [reflexivity|]. rewrite nth_app_last. set (fl := map (fun u => if Rle_dec u p then true else false) draws). assert (LF : length fl = length draws) by apply map_length. destruct (fresh_write mem (nth a mem []) (map (fun bf : Z * bool => if snd bf then Z.lxor 1 (fst bf) else fst bf) (combine (nth a mem []) fl))) as (F1 & F2). rewrite F1. split; [lia|]. split; [exact F2|].
  split; [rewrite map_length, combine_length; lia|]. intros i Hi. rewrite (nth_map_lt _ _ _ (0, false) 0) by (rewrite combine_length; lia). rewrite combine_nth_pair by lia. cbn [fst snd]. unfold fl. rewrite (nth_map_lt _ _ _ 0%R false) by exact Hi. unfold bits in HB. rewrite Forall_forall in HB. specialize (HB (nth i (nth a mem []) 0) ltac:(apply nth_In; lia)).
  destruct (Rle_dec (nth i draws 0%R) p); split; intros; try lra; try reflexivity. destruct HB as [-> | ->]; reflexivity.
Qed.

Lemma C50_certain_proof :
(* probability 1 (or more) affects every bit: numpy's draws are below 1 *)
  forall (mem : memory) (a : nat) (p : R) (draws : list R), (a < length mem)%nat -> length draws = length (nth a mem []) -> bits (nth a mem []) -> Forall (fun u => 0 <= u < 1)%R draws -> (1 <= p)%R ->
    (let '(mem', out) := bec mem a p draws in nth out mem' [] = repeat (-1) (length draws)) /\ (let '(mem', out) := bsc mem a p draws in nth out mem' [] = map (fun b => 1 - b) (nth a mem [])).
Proof.
  intros mem a p draws Ha HL HB HU Hp. rewrite Forall_forall in HU. assert (HD : forall i, (i < length draws)%nat -> (nth i draws 0 <= p)%R) by (intros i Hi; specialize (HU _ (nth_In draws 0%R Hi)); lra). split.
  - destruct (C50_bec_proof mem a p draws Ha HL) as (mem' & out & E & _ & _ & L & H). rewrite E. apply (nth_ext _ _ 0 0); [rewrite repeat_length; exact L|]. intros i Hi. rewrite L in Hi. destruct (H i Hi) as (H1 & _). rewrite H1 by (apply HD, Hi). rewrite (nth_indep _ 0 (-1)) by (rewrite repeat_length; exact Hi). symmetry. apply nth_repeat.
  - destruct (C50_bsc_proof mem a p draws Ha HL HB) as (mem' & out & E & _ & _ & L & H). rewrite E. apply (nth_ext _ _ 0 0); [rewrite map_length; lia|]. intros i Hi. rewrite L in Hi. destruct (H i Hi) as (H1 & _). rewrite H1 by (apply HD, Hi). rewrite (nth_map_lt _ _ _ 0 0) by lia. reflexivity.
Qed.

Lemma C50_zero_refuted_proof :
(* probability 0 can still affect a bit: the comparison is <= and random() may return 0.0 *)
  ~ (forall (mem : memory) (a : nat) (draws : list R), (a < length mem)%nat -> length draws = length (nth a mem []) -> bits (nth a mem []) -> Forall (fun u => 0 <= u < 1)%R draws ->
       (let '(mem', out) := bec mem a 0 draws in nth out mem' [] = nth a mem []) /\ (let '(mem', out) := bsc mem a 0 draws in nth out mem' [] = nth a mem [])).
Proof.
  intros H. destruct (H [[1]] 0%nat [0%R] ltac:(cbn; lia) eq_refl ltac:(constructor; [right; reflexivity|constructor]) ltac:(constructor; [lra|constructor])) as (H1 & _). unfold bec in H1. cbn in H1. destruct (Rle_dec 0 0); [discriminate H1|lra].
Qed.

Lemma C51_history_proof :
(* after any sequence of operations, whether they fail or not, the parameters are normalised and the channel is complex exactly if
     the stored mean has type complex *)
  forall (std : option R) (f : siso_param) (ch : siso) (ops : list siso_op), siso_init std f = Ok ch ->
    let ch' := fold_left (fun c o => fst (siso_do c o)) ops ch in
    let '(mean, cplx, var) := s_fading ch' in (var + Cnorm2 mean = 1)%R /\ s_complex ch' = cplx.
Proof.
  intros std f ch ops H. apply siso_init_ok in H. revert ch H. induction ops as [|o ops IH]; intros ch H; [exact H|]. cbn [fold_left]. apply IH, siso_do_ok, H.
Qed.

Lemma C51_failed_call_proof :
(* an operation that raises leaves the channel as it was *)
  forall (ch ch' : siso) (o : siso_op) (e : exn), siso_do ch o = (ch', Err e) -> ch' = ch.
Proof.
  intros ch ch' o e H. destruct o as [f|s|snr rate es|snr rate es|msg c n1 n2 g1 g2]; cbn [siso_do] in H.
  - unfold siso_set in H. destruct f as [[mean cplx] var]. destruct (Req_EM_T _ 1); [discriminate|]. injection H as <- _. reflexivity.
  - discriminate.
  - destruct (snr_lin _ _ _ _ _); [discriminate|]. injection H as <- _. reflexivity.
  - destruct (snr_dB _ _ _ _ _); [discriminate|]. injection H as <- _. reflexivity.
  - unfold siso_propagate in H. destruct msg as [|m0 ms]; [injection H as <- _; reflexivity|]. destruct (_ && _); [injection H as <- _; reflexivity|]. destruct (s_std ch) as [sd|]; [|injection H as <- _; reflexivity]. destruct (s_fading ch) as [[mean cplx] var]. discriminate.
Qed.

Lemma C51_setter_proof :
(* accepted exactly if variance + |mean|^2 = 1, otherwise ValueError *)
  forall (ch : siso) (mean : C) (cplx : bool) (var : R),
    ((var + Cnorm2 mean = 1)%R -> exists ch', siso_set ch (mean, cplx, var) = (ch', Ok tt) /\ s_fading ch' = (mean, cplx, var) /\ s_complex ch' = cplx /\ s_std ch' = s_std ch) /\
    ((var + Cnorm2 mean <> 1)%R -> siso_set ch (mean, cplx, var) = (ch, Err ValueError)).
Proof.
  intros ch mean cplx var. unfold siso_set. rewrite Cabs_sqr. split; intros H; destruct (Req_EM_T _ 1); try congruence. eexists. split; [reflexivity|]. auto.
Qed.

Lemma C51_constructor_proof :
(* the constructor: the object holds the given noise level and fading parameters and nothing has been propagated yet; unnormalised
     parameters raise ValueError *)
  forall (std : option R) (mean : C) (cplx : bool) (var : R),
    ((var + Cnorm2 mean = 1)%R -> exists ch, siso_init std (mean, cplx, var) = Ok ch /\ s_std ch = option_map Some std /\ s_fading ch = (mean, cplx, var) /\ s_complex ch = cplx /\ s_noises ch = None /\ s_gains ch = None /\ s_unnoisy ch = None) /\
    ((var + Cnorm2 mean <> 1)%R -> siso_init std (mean, cplx, var) = Err ValueError).
Proof.
  intros std mean cplx var. unfold siso_init, siso_set. rewrite Cabs_sqr. split; intros H; destruct (Req_EM_T _ 1); try congruence. eexists. split; [reflexivity|]. cbn. destruct std; repeat split; reflexivity.
Qed.

Lemma C51_documented_condition_refuted_proof :
(* the documented condition |variance| + |mean|^2 = 1 is not what is checked: a negative variance is accepted and propagation
     then returns only NaN *)
  ~ (forall (f : siso_param) (ch : siso), siso_init (Some 1%R) f = Ok ch -> let '(mean, _, var) := f in (Rabs var + Cnorm2 mean = 1)%R)
  /\ exists (f : siso_param) (ch : siso), siso_init (Some 1%R) f = Ok ch /\ forall m msg n1 n2 g1 g2, snd (siso_propagate ch (m :: msg) false n1 n2 g1 g2) = Ok NaNs.
Proof.
  assert (I : exists ch, siso_init (Some 1%R) (mkC 2 0, false, (-3)%R) = Ok ch /\ s_std ch = Some (Some 1%R) /\ s_complex ch = false /\ s_fading ch = (mkC 2 0, false, (-3)%R)).
  { unfold siso_init, siso_set. rewrite Cabs_sqr. unfold Cnorm2. cbn [re im]. destruct (Req_EM_T _ 1) as [_|F]; [|exfalso; apply F; lra]. eexists. split; [reflexivity|]. auto. }
  destruct I as (ch & E & E1 & E2 & E3). split.
  - intros H. specialize (H _ _ E). unfold Cnorm2 in H. cbn [re im] in H. rewrite Rabs_left in H by lra. lra.
  - exists (mkC 2 0, false, (-3)%R), ch. split; [exact E|]. intros m msg n1 n2 g1 g2. unfold siso_propagate. rewrite E1, E2, E3. cbn [andb negb]. unfold np_sqrt. destruct (Rlt_dec (-3) 0); [reflexivity|lra].
Qed.

Lemma C51_k_factor_proof :
(* after any sequence of operations, with a stored variance v >= 0: k_factor is infinite for v = 0, otherwise it is the number k
     for which the fixed part carries k/(k+1) of the energy and the random part 1/(k+1) *)
  forall (std : option R) (f : siso_param) (ch : siso) (ops : list siso_op), siso_init std f = Ok ch ->
    let ch' := fold_left (fun c o => fst (siso_do c o)) ops ch in
    let '(mean, _, var) := s_fading ch' in
    (var = 0%R -> siso_k ch' = PInf) /\
    ((0 < var)%R -> exists k : R, siso_k ch' = Fin k /\ (0 <= k)%R /\ Cnorm2 mean = (k / (k + 1))%R /\ var = (1 / (k + 1))%R).
Proof.
  intros std f ch ops H. pose proof (C51_history_proof std f ch ops H) as G. cbv zeta in *. unfold siso_k. destruct (s_fading _) as [[mean cplx] var]. destruct G as (G & _).
  rewrite Cabs_sqr. assert (N : (0 <= Cnorm2 mean)%R) by (rewrite <- Cabs_sqr; pose proof (Cabs_nonneg mean); nra). unfold ext_div. split.
  - intros ->. rewrite Rabs_R0. destruct (Req_EM_T 0 0) as [_|F]; [|congruence]. destruct (Rlt_dec 0 (Cnorm2 mean)); [reflexivity|lra].
  - intros Hv. rewrite Rabs_right by lra. destruct (Req_EM_T var 0) as [F|_]; [lra|]. exists (Cnorm2 mean / var)%R. split; [reflexivity|]. assert (S : (Cnorm2 mean / var + 1 = 1 / var)%R) by (replace (Cnorm2 mean) with (1 - var)%R by lra; field; lra).
    split; [apply Rmult_le_pos; [exact N|apply Rlt_le, Rinv_0_lt_compat, Hv]|]. rewrite S. split; field; lra.
Qed.

Lemma C51_propagate_proof :
(* output = gain * message + noise, entry by entry; for the draws of unit variance the mean power of every gain is 1 *)
  forall (ch : siso) (msg : list C) (mc : bool) (s : R) (W : Type) (E : (W -> R) -> R) (n1 n2 g1 g2 : nat -> W -> R),
    siso_init (Some s) (s_fading ch) = Ok ch -> msg <> [] -> (mc = true -> s_complex ch = true) -> (0 <= snd (s_fading ch))%R -> expectation E ->
    exists (gain : nat -> W -> C) (eta : nat -> W -> C),
      (forall w, snd (siso_propagate ch msg mc (fun i => n1 i w) (fun i => n2 i w) (fun i => g1 i w) (fun i => g2 i w)) = Ok (Num (map (fun i => (gain i w * nth i msg C0 + eta i w)%C) (seq 0 (length msg))))) /\
      forall i, white E [true; false] (fun b : bool => if b then g1 i else g2 i) -> E (fun w => Cnorm2 (gain i w)) = 1%R.
Proof.
  intros ch msg mc s W E n1 n2 g1 g2 HI Hne Hc Hv HE. assert (OK := siso_init_ok _ _ _ HI). assert (HS : s_std ch = Some (Some s)). { unfold siso_init in HI. destruct (s_fading ch) as [[mean cplx] var]. unfold siso_set in HI. destruct (Req_EM_T _ 1); [|discriminate]. injection HI as HI. rewrite <- HI. reflexivity. }
  unfold siso_ok in OK. destruct (s_fading ch) as [[mean cplx] var] eqn:F. destruct OK as (O1 & O2). cbn [snd] in Hv. set (q := sqrt (if s_complex ch then 1 / 2 * var else var)).
  assert (Hq : (q * q = if s_complex ch then 1 / 2 * var else var)%R) by (apply sqrt_sqrt; destruct (s_complex ch); lra).
  exists (fun i w => siso_gain (s_complex ch) mean q (g1 i w) (g2 i w)), (fun i w => noise (s_complex ch) s (n1 i w) (n2 i w)). split.
  - intros w. unfold siso_propagate. destruct msg as [|m0 ms] eqn:Em; [congruence|]. rewrite <- Em in *. clear Em Hne. assert (C1' : mc && negb (s_complex ch) = false) by (destruct mc; [rewrite Hc by reflexivity; reflexivity|reflexivity]). rewrite C1', HS, F. unfold np_sqrt. destruct (Rlt_dec _ 0) as [L|_]; [exfalso; destruct (s_complex ch); lra|]. fold q. cbn [snd]. do 2 f_equal.
    assert (X : combine (map (fun i => siso_gain (s_complex ch) mean q (g1 i w) (g2 i w)) (seq 0 (length msg))) msg = map (fun i => (siso_gain (s_complex ch) mean q (g1 i w) (g2 i w), nth i msg C0)) (seq 0 (length msg))) by (rewrite <- (map_nth_seq_id msg C0) at 2; apply combine_same).
    rewrite X, map_map, combine_same, map_map. reflexivity.
  - intros i (W1 & W2 & _). pose proof (W1 true ltac:(cbn; tauto)). pose proof (W1 false ltac:(cbn; tauto)). pose proof (W2 true ltac:(cbn; tauto)). pose proof (W2 false ltac:(cbn; tauto)). rewrite (gain_power E HE) by assumption. rewrite Hq. destruct (s_complex ch); lra.
Qed.

Lemma C51_propagate_errors_proof :
(* a complex message on a real channel: TypeError; no noise level: AssertionError; empty message: IndexError *)
  forall (ch : siso) (m : C) (msg : list C) (mc : bool) n1 n2 g1 g2,
    siso_propagate ch [] mc n1 n2 g1 g2 = (ch, Err IndexError) /\ (s_complex ch = false -> siso_propagate ch (m :: msg) true n1 n2 g1 g2 = (ch, Err TypeError)) /\
    (s_std ch = None -> (mc = true -> s_complex ch = true) -> siso_propagate ch (m :: msg) mc n1 n2 g1 g2 = (ch, Err AssertionError)).
Proof.
  intros ch m msg mc n1 n2 g1 g2. split; [reflexivity|]. split.
  - intros H. unfold siso_propagate. rewrite H. reflexivity.
  - intros H Hc. unfold siso_propagate. assert (C1' : mc && negb (s_complex ch) = false) by (destruct mc; [rewrite Hc by reflexivity; reflexivity|reflexivity]). rewrite C1', H. reflexivity.
Qed.

Lemma C52_history_proof :
(* after any sequence of operations, failing or not, the energy of the stored parameters is the number of antenna pairs up to 1e-3,
     unless the stored mean is NaN *)
  forall (tx rx : nat) (std : option R) (f : option fading) (ch : mimo) (ops : list mimo_op), mimo_init tx rx std f = Ok ch ->
    let ch' := fold_left (fun c o => fst (mimo_do c o)) ops ch in let g := m_fading ch' in
    m_nan (f_mean g) = true \/ (shape tx tx (f_rt g) -> shape rx rx (f_rr g) -> (Cabs (total_energy tx rx g - ofR (INR tx * INR rx))%C <= 1 / 1000)%R).
Proof.
  intros tx rx std f ch ops H. assert (G : forall ops c, mimo_ok c -> mimo_ok (fold_left (fun c o => fst (mimo_do c o)) ops c) /\ t_nb (fold_left (fun c o => fst (mimo_do c o)) ops c) = t_nb c /\ r_nb (fold_left (fun c o => fst (mimo_do c o)) ops c) = r_nb c).
  { clear. induction ops as [|o ops IH]; intros c Hc; [auto|]. cbn [fold_left]. destruct (mimo_do_ok c o Hc) as (A & B & D). destruct (IH _ A) as (X & Y & Z). rewrite Y, Z. auto. }
  assert (I : mimo_ok ch /\ t_nb ch = tx /\ r_nb ch = rx).
  { unfold mimo_init in H. match type of H with match mimo_set ?b ?g with _ => _ end = _ => destruct (mimo_set b g) as [c [u|e]] eqn:E; [|discriminate]; injection H as <-; set (bl := b) in *; set (gg := g) in * end.
    unfold mimo_set in E. destruct (m_nan (f_mean gg)) eqn:En; cbn [negb andb] in E.
    - destruct (m_rows (f_mean gg)) as [|[|z row] rows]; try discriminate; injection E as <- _. split; [left; exact En|split; reflexivity].
    - destruct (Rlt_dec _ _) as [|Hl]; [discriminate|]. destruct (m_rows (f_mean gg)) as [|[|z row] rows]; try discriminate; injection E as <- _. split; [right; apply Rnot_lt_le; exact Hl|split; reflexivity]. }
  destruct I as (I1 & I2 & I3). destruct (G ops ch I1) as (A & B & D). cbv zeta. rewrite I2 in B. rewrite I3 in D. destruct A as [A|A]; [left; exact A|right]. intros S1 S2. rewrite <- (energy_shape tx rx) by assumption. rewrite B, D in A. exact A.
Qed.

Lemma C52_rayleigh_proof :
(* the Rayleigh setters: zero mean and exact normalisation; the constructor's default is the uncorrelated real one *)
  forall (ch : mimo), (1 <= t_nb ch)%nat -> (1 <= r_nb ch)%nat ->
    (forall cplx, exists ch', uncorr_rayleigh ch cplx = (ch', Ok tt) /\ m_complex ch' = cplx /\ total_energy (t_nb ch) (r_nb ch) (m_fading ch') = ofR (INR (t_nb ch) * INR (r_nb ch)) /\ energy_of (m_rows (f_mean (m_fading ch'))) = 0%R /\ t_nb ch' = t_nb ch /\ r_nb ch' = r_nb ch) /\
    (forall t r bt br, t <> C0 -> r <> C0 -> (Cabs t <= 1 + 1 / 10000)%R -> (Cabs r <= 1 + 1 / 10000)%R -> (0 <= bt)%R -> (0 <= br)%R ->
       exists ch', expo_rayleigh ch t r bt br = (ch', Ok tt) /\ m_complex ch' = true /\ total_energy (t_nb ch) (r_nb ch) (m_fading ch') = ofR (INR (t_nb ch) * INR (r_nb ch)) /\ energy_of (m_rows (f_mean (m_fading ch'))) = 0%R /\
         (forall i j, (i < t_nb ch)%nat -> (j < t_nb ch)%nat -> entry (f_rt (m_fading ch')) i j = (CpowZ t (Z.of_nat j - Z.of_nat i) * ofR (exp (- bt * Rabs (INR j - INR i))))%C) /\
         (forall i j, (i < r_nb ch)%nat -> (j < r_nb ch)%nat -> entry (f_rr (m_fading ch')) i j = (CpowZ r (Z.of_nat j - Z.of_nat i) * ofR (exp (- br * Rabs (INR j - INR i))))%C)) /\
    (exists ch', mimo_init (t_nb ch) (r_nb ch) None None = Ok ch' /\ m_complex ch' = false /\ total_energy (t_nb ch) (r_nb ch) (m_fading ch') = ofR (INR (t_nb ch) * INR (r_nb ch))).
Proof.
  intros ch Ht Hr. split; [|split].
  - intros cplx. rewrite rayleigh_ok by assumption. eexists. split; [reflexivity|]. split; [reflexivity|]. split; [|split; [cbn [mimo_with m_fading f_mean plain m_rows]; apply zeros_energy|auto]]. apply zero_total; cbn [mimo_with m_fading f_mean f_rt f_rr plain m_cplx]; [reflexivity|apply identity_diag|apply identity_diag].
  - intros t r bt br _ _ H1 H2 H3 H4. destruct (expo_rayleigh_ok ch Ht Hr t r bt br H1 H2 H3 H4) as (A & B & D). rewrite A. eexists. split; [reflexivity|]. split; [reflexivity|]. split; [exact D|]. split; [cbn [mimo_with m_fading expo_fb f_mean plain m_rows]; apply zeros_energy|]. cbn [mimo_with m_fading expo_fb f_rt f_rr]. rewrite !corr_rayleigh. unfold corr. split; intros i j Hi Hj; rewrite build_entry by assumption; f_equal; creal.
  - unfold mimo_init. set (b := {| t_nb := _ |}). pose proof (rayleigh_ok b Ht Hr false) as E. unfold uncorr_rayleigh in E. change (t_nb b) with (t_nb ch) in E. change (r_nb b) with (r_nb ch) in E. rewrite E. eexists. split; [reflexivity|]. split; [reflexivity|]. apply (zero_total ch); cbn [mimo_with m_fading f_mean f_rt f_rr plain m_cplx]; [reflexivity|apply identity_diag|apply identity_diag].
Qed.

Lemma C52_rician_proof :
(* the Rician setters: nonzero mean of the right shape, k-factor at least 0: accepted, exactly normalised, the mean is a nonnegative
     multiple of the given one and the k_factor attribute is the requested number *)
  forall (ch : mimo) (mean : fmat) (k : R), (1 <= t_nb ch)%nat -> (1 <= r_nb ch)%nat -> shape (r_nb ch) (t_nb ch) (m_rows mean) -> m_nan mean = false -> energy_of (m_rows mean) <> 0%R -> (0 <= k)%R ->
    let good (o : mimo * res unit) := exists ch' s, o = (ch', Ok tt) /\ total_energy (t_nb ch) (r_nb ch) (m_fading ch') = ofR (INR (t_nb ch) * INR (r_nb ch)) /\ mimo_k ch' = ofR k /\ (0 <= s)%R /\ m_rows (f_mean (m_fading ch')) = map (map (Cscale s)) (m_rows mean) /\ m_complex ch' = m_cplx mean in
    good (uncorr_rician ch mean k) /\ forall t r bt br, t <> C0 -> r <> C0 -> (Cabs t <= 1 + 1 / 10000)%R -> (Cabs r <= 1 + 1 / 10000)%R -> (0 <= bt)%R -> (0 <= br)%R -> good (expo_rician ch mean k t r bt br).
Proof.
  intros ch mean k Ht Hr Hm Hn He Hk good. destruct (scaled_ok ch Ht Hr mean k Hm Hn Hk He) as (s & Hs & Es & _). split.
  - unfold good. rewrite (rician_ok ch Ht Hr mean k Hm Hn Hk He). destruct (rice_total ch Ht Hr mean k Hm Hn (identity (t_nb ch)) (identity (r_nb ch)) Hk He (identity_shape _) (identity_shape _) (identity_diag _) (identity_diag _)) as (S & T & TR & EN & _ & _).
    eexists _, s. split; [reflexivity|]. split; [exact T|]. split; [apply (k_value ch Ht Hr mean k Hm); assumption|]. split; [exact Hs|]. split; [cbn [mimo_with m_fading rice f_mean]; rewrite Es; reflexivity|reflexivity].
  - intros t r bt br _ _ H1 H2 H3 H4. unfold good. destruct (expo_rician_ok ch Ht Hr mean k Hm Hn t r bt br Hk He H1 H2 H3 H4) as (A & B & D & F & G). rewrite A.
    eexists _, s. split; [reflexivity|]. split; [exact D|]. split; [apply (k_value ch Ht Hr mean k Hm); assumption|]. split; [exact Hs|]. split; [cbn [mimo_with m_fading rice_b rice f_mean]; rewrite Es; reflexivity|reflexivity].
Qed.

Lemma C52_rejected_proof :
(* ValueError, channel unchanged, when |t| or |r| exceeds 1 by more than 1e-4; k = -1: ZeroDivisionError; the setter rejects a wrong energy *)
  forall (ch : mimo) (mean : fmat) (k : R) (t r : C) (bt br : R) (f : fading),
    ((1 + 1 / 10000 < Cabs t)%R \/ (1 + 1 / 10000 < Cabs r)%R -> expo_rayleigh ch t r bt br = (ch, Err ValueError) /\ expo_rician ch mean k t r bt br = (ch, Err ValueError)) /\
    uncorr_rician ch mean (-1) = (ch, Err ZeroDivisionError) /\
    (m_nan (f_mean f) = false -> shape (t_nb ch) (t_nb ch) (f_rt f) -> shape (r_nb ch) (r_nb ch) (f_rr f) -> (1 / 1000 < Cabs (total_energy (t_nb ch) (r_nb ch) f - ofR (INR (t_nb ch) * INR (r_nb ch)))%C)%R -> mimo_set ch f = (ch, Err ValueError)).
Proof.
  intros ch mean k t r bt br f. split; [|split].
  - intros H. unfold expo_rayleigh, expo_rician. destruct (too_big t) eqn:E; [auto|]. destruct H as [H|H]; [rewrite too_big_true in E by exact H; discriminate|]. rewrite (too_big_true r H). auto.
  - unfold uncorr_rician. destruct (Req_EM_T (-1 + 1) 0); [reflexivity|lra].
  - intros Hn S1 S2 H. unfold mimo_set. rewrite (energy_shape (t_nb ch) (r_nb ch)) by assumption. rewrite Hn. destruct (Rlt_dec _ _); [reflexivity|lra].
Qed.

Lemma rice_wrong : forall (ch : mimo) (mean : fmat) (k : R) (a b : nat) (bt br : list (list C)), (1 <= t_nb ch)%nat -> (1 <= r_nb ch)%nat -> shape a b (m_rows mean) -> m_nan mean = false -> energy_of (m_rows mean) <> 0%R -> (a * b <> t_nb ch * r_nb ch)%nat -> (1 / 999 < k)%R ->
  shape (t_nb ch) (t_nb ch) bt -> shape (r_nb ch) (r_nb ch) br -> diag_sum (t_nb ch) bt = ofR (INR (t_nb ch)) -> diag_sum (r_nb ch) br = ofR (INR (r_nb ch)) ->
  mimo_set ch (rice mean k bt br) = (ch, Err ValueError).
Proof.
  intros ch mean k a b bt br HT HR Hm Hn He Hab Hk S1 S2 D1 D2. assert (Hk0 : (0 < k)%R) by lra.
  assert (EN : mat_size (m_rows mean) = (a * b)%nat). { unfold mat_size. destruct Hm as (H1 & H2). rewrite H1. destruct (m_rows mean) as [|row l] eqn:E; [cbn in He; lra|]. inversion H2; subst. reflexivity. }
  assert (HN : (0 < INR (mat_size (m_rows mean)))%R). { apply lt_0_INR. rewrite EN. destruct (a * b)%nat eqn:Z0; [|lia]. exfalso. apply He. apply Nat.eq_mul_0 in Z0. destruct Hm as (H1 & H2). destruct (m_rows mean) as [|row l] eqn:E; [reflexivity|]. cbn [length] in H1. destruct Z0 as [Z0|Z0]; [lia|]. subst b. clear - H2. unfold energy_of. induction H2 as [|x l' Hx _ IH]; [reflexivity|]. destruct x; [|discriminate]. cbn [map Rsum fold_right] in *. unfold Rsum in *. cbn [map fold_right] in *. lra. }
  assert (EE : energy_of (m_rows (f_mean (rice mean k bt br))) = (k * (INR (mat_size (m_rows mean)) / (k + 1)))%R /\ m_nan (f_mean (rice mean k bt br)) = false).
  { cbn [rice f_mean]. unfold scaled_mean. rewrite abs2_energy. destruct (Req_EM_T _ 0); [lra|]. unfold np_sqrt. pose proof (energy_nonneg (m_rows mean)) as P.
    assert (Q : (0 <= k * (INR (mat_size (m_rows mean)) / (k + 1)) / energy_of (m_rows mean))%R). { apply Rmult_le_pos; [apply Rmult_le_pos; [lra|apply Rlt_le, Rdiv_lt_0_compat; lra]|]. apply Rlt_le, Rinv_0_lt_compat. lra. }
    destruct (Rlt_dec _ 0); [lra|]. cbn [m_rows m_nan]. split; [|exact Hn]. rewrite energy_scale, sqrt_sqrt by exact Q. field. lra. }
  destruct EE as [EE EQ]. unfold mimo_set. rewrite EQ. rewrite (energy_shape (t_nb ch) (r_nb ch)); [|cbn [rice f_rt]; apply scale_shape, S1|exact S2]. unfold total_energy. rewrite EE. cbn [rice f_rt f_rr]. rewrite scale_diag by exact S1. rewrite D1, D2.
  set (n := INR (mat_size (m_rows mean))) in *. set (t := INR (t_nb ch)) in *. set (r := INR (r_nb ch)) in *.
  assert (EC : (Cscale (n / (k + 1) / n) (ofR t) * ofR r + ofR (k * (n / (k + 1))) - ofR (t * r))%C = ofR (k / (k + 1) * (n - t * r))). { unfold Cscale, ofR, Cmul, Cadd, Csub, Copp. cbn [re im]. f_equal; [field; lra|ring]. }
  assert (D : (1 <= Rabs (n - t * r))%R). { unfold n, t, r. rewrite EN, <- mult_INR, !INR_IZR_INZ, <- minus_IZR, <- abs_IZR. apply IZR_le. lia. }
  assert (G : (1 / 1000 < Cabs (Cscale (n / (k + 1) / n) (ofR t) * ofR r + ofR (k * (n / (k + 1))) - ofR (t * r))%C)%R).
  { rewrite EC. unfold Cabs, Cnorm2, ofR. cbn [re im]. match goal with |- context [sqrt (?x * ?x + _)] => replace (x * x + 0 * 0)%R with (Rsqr x) by (unfold Rsqr; ring) end. rewrite sqrt_Rsqr_abs, Rabs_mult. assert (K : (1 / 1000 < k / (k + 1))%R). { apply (Rmult_lt_reg_r (k + 1)); [lra|]. replace (k / (k + 1) * (k + 1))%R with k by (field; lra). lra. } rewrite (Rabs_right (k / (k + 1))) by lra. nra. }
  destruct (Rlt_dec _ _) as [_|F]; [reflexivity|]. exfalso. apply F, G.
Qed.

Lemma C52_wrong_mean_proof :
(* a mean with the wrong number of entries, k-factor above 1/999: both Rician setters raise ValueError and leave the channel unchanged *)
  forall (ch : mimo) (mean : fmat) (k : R) (a b : nat) (t r : C) (bt br : R), (1 <= t_nb ch)%nat -> (1 <= r_nb ch)%nat -> shape a b (m_rows mean) -> m_nan mean = false -> energy_of (m_rows mean) <> 0%R -> (a * b <> t_nb ch * r_nb ch)%nat -> (1 / 999 < k)%R -> t <> C0 -> r <> C0 ->
    uncorr_rician ch mean k = (ch, Err ValueError) /\ expo_rician ch mean k t r bt br = (ch, Err ValueError).
Proof.
  intros ch mean k a b t r bt br HT HR Hm Hn He Hab Hk _ _. split.
  - unfold uncorr_rician. destruct (Req_EM_T (k + 1) 0); [lra|]. apply (rice_wrong ch mean k a b (identity (t_nb ch)) (identity (r_nb ch))); auto using identity_shape, identity_diag.
  - unfold expo_rician. destruct (too_big t); [reflexivity|]. destruct (too_big r); [reflexivity|]. destruct (Req_EM_T (k + 1) 0); [lra|]. fold (rice mean k (expo_matrix (t_nb ch) t) (expo_matrix (r_nb ch) r)).
    rewrite (rice_wrong ch mean k a b); auto using expo_shape, expo_diag.
Qed.

Lemma C52_constructor_proof :
(* the constructor: the object holds the given antenna counts, noise level and fading parameters and nothing has been propagated yet;
     unnormalised parameters raise ValueError; the default parameters are the uncorrelated real Rayleigh ones *)
  forall (tx rx : nat) (std : option R), (1 <= tx)%nat -> (1 <= rx)%nat ->
    (forall f, m_nan (f_mean f) = false -> shape rx tx (m_rows (f_mean f)) -> shape tx tx (f_rt f) -> shape rx rx (f_rr f) ->
       ((Cabs (total_energy tx rx f - ofR (INR tx * INR rx))%C <= 1 / 1000)%R ->
          exists ch, mimo_init tx rx std (Some f) = Ok ch /\ t_nb ch = tx /\ r_nb ch = rx /\ m_std ch = option_map Some std /\ m_fading ch = f /\ m_complex ch = m_cplx (f_mean f) /\ m_noises ch = None /\ m_gains ch = None /\ m_unnoisy ch = None) /\
       ((1 / 1000 < Cabs (total_energy tx rx f - ofR (INR tx * INR rx))%C)%R -> mimo_init tx rx std (Some f) = Err ValueError)) /\
    exists ch f, mimo_init tx rx std None = Ok ch /\ t_nb ch = tx /\ r_nb ch = rx /\ m_std ch = option_map Some std /\ m_fading ch = f /\ m_complex ch = false /\ m_noises ch = None /\ m_gains ch = None /\ m_unnoisy ch = None /\
      m_nan (f_mean f) = false /\ (forall j i, (j < rx)%nat -> (i < tx)%nat -> entry (m_rows (f_mean f)) j i = C0) /\ (forall i j, (i < tx)%nat -> (j < tx)%nat -> entry (f_rt f) i j = if (i =? j)%nat then C1 else C0) /\ (forall i j, (i < rx)%nat -> (j < rx)%nat -> entry (f_rr f) i j = if (i =? j)%nat then C1 else C0).
Proof.
  intros tx rx std Ht Hr. split.
  - intros f Hn Hm S1 S2. unfold mimo_init. set (b := {| t_nb := _ |}).
    assert (E : mimo_set b f = if Rlt_dec (1 / 1000) (Cabs (total_energy tx rx f - ofR (INR tx * INR rx))%C) then (b, Err ValueError) else (mimo_with b f (m_cplx (f_mean f)), Ok tt)).
    { unfold mimo_set. rewrite (energy_shape tx rx) by assumption. rewrite Hn. cbn [negb andb]. unfold b; cbn [t_nb r_nb]. destruct (Rlt_dec _ _); [reflexivity|]. destruct Hm as (L & F). destruct (m_rows (f_mean f)) as [|[|z row] rows]; [cbn in L; lia| |reflexivity]. inversion F; cbn in *; lia. }
    cbn beta. fold b. rewrite E. split; intros H; destruct (Rlt_dec _ _); try lra; try reflexivity. eexists. split; [reflexivity|]. unfold b; cbn. destruct std; repeat split; reflexivity.
  - unfold mimo_init. set (b := {| t_nb := _ |}). pose proof (rayleigh_ok b Ht Hr false) as E. unfold uncorr_rayleigh in E. change (t_nb b) with tx in E. change (r_nb b) with rx in E. rewrite E. eexists _, _. split; [reflexivity|]. cbn [mimo_with b t_nb r_nb m_std m_fading m_complex m_noises m_gains m_unnoisy f_mean f_rt f_rr plain m_nan m_rows].
    do 8 (split; [try reflexivity; destruct std; reflexivity|]). split; [reflexivity|]. split; [|split].
    + intros j i Hj Hi. unfold entry, zeros. cbn [f_mean plain m_rows]. rewrite (nth_indep _ [] (repeat C0 tx)) by (rewrite repeat_length; exact Hj). rewrite nth_repeat. apply nth_repeat.
    + intros i j Hi Hj. apply build_entry; assumption.
    + intros i j Hi Hj. apply build_entry; assumption.
Qed.

Lemma C52_failed_call_refuted_proof :
(* a failed call may change the channel: a negative beta raises ValueError after the fading parameters have been replaced *)
  ~ (forall (ch ch' : mimo) (o : mimo_op) (e : exn), mimo_do ch o = (ch', Err e) -> ch' = ch)
  /\ forall (ch : mimo) (t r : C) (bt br : R), (1 <= t_nb ch)%nat -> (1 <= r_nb ch)%nat -> t <> C0 -> r <> C0 -> (Cabs t <= 1 + 1 / 10000)%R -> (Cabs r <= 1 + 1 / 10000)%R -> (bt < 0 \/ br < 0)%R ->
       exists ch', expo_rayleigh ch t r bt br = (ch', Err ValueError) /\ m_complex ch' = true /\ forall i j, (i < t_nb ch)%nat -> (j < t_nb ch)%nat -> entry (f_rt (m_fading ch')) i j = CpowZ t (Z.of_nat j - Z.of_nat i).
Proof.
  assert (P : forall (ch : mimo) (t r : C) (bt br : R), (1 <= t_nb ch)%nat -> (1 <= r_nb ch)%nat -> t <> C0 -> r <> C0 -> (Cabs t <= 1 + 1 / 10000)%R -> (Cabs r <= 1 + 1 / 10000)%R -> (bt < 0 \/ br < 0)%R ->
       exists ch', expo_rayleigh ch t r bt br = (ch', Err ValueError) /\ m_complex ch' = true /\ forall i j, (i < t_nb ch)%nat -> (j < t_nb ch)%nat -> entry (f_rt (m_fading ch')) i j = CpowZ t (Z.of_nat j - Z.of_nat i)).
  { intros ch t r bt br Ht Hr _ _ H1 H2 Hb. rewrite (expo_rayleigh_set ch Ht Hr t r bt br H1 H2). rewrite kbsm_neg by exact Hb. eexists. split; [reflexivity|]. split; [reflexivity|]. intros i j Hi Hj. cbn [mimo_with m_fading expo_f f_rt]. rewrite expo_build. apply build_entry; assumption. }
  split; [|exact P]. intros H. destruct (C52_rayleigh_proof {| t_nb := 1; r_nb := 1; m_std := None; m_fading := {| f_mean := plain [] false; f_rt := []; f_rr := [] |}; m_complex := false; m_noises := None; m_gains := None; m_unnoisy := None |} ltac:(cbn; lia) ltac:(cbn; lia)) as (_ & _ & ch & I & Ic & _). cbn [t_nb r_nb] in I.
  assert (TN : t_nb ch = 1%nat /\ r_nb ch = 1%nat). { unfold mimo_init in I. match type of I with match mimo_set ?b ?g with _ => _ end = _ => pose proof (rayleigh_ok b (le_n 1) (le_n 1) false) as E; unfold uncorr_rayleigh in E; cbn [t_nb r_nb] in E; rewrite E in I end. injection I as <-. auto. }
  destruct TN as (T1 & T2). assert (NZ1 : C1 <> C0) by (intros F; apply (f_equal re) in F; cbn in F; lra). assert (A1 : (Cabs C1 <= 1 + 1 / 10000)%R) by (unfold Cabs, Cnorm2, C1; cbn [re im]; rewrite Rmult_1_l, Rmult_0_l, Rplus_0_r, sqrt_1; lra). destruct (P ch C1 C1 (-1)%R 0%R ltac:(lia) ltac:(lia) NZ1 NZ1 A1 A1 ltac:(left; lra)) as (ch' & E & Ec & _).
  specialize (H ch ch' (MExpoRayleigh C1 C1 (-1) 0) ValueError E). subst ch'. congruence.
Qed.

Lemma C52_nan_mean_proof :
(* a zero mean, or -1 < k < 0: the scaled mean is NaN and it is accepted, because comparisons with NaN are false *)
  forall (ch : mimo) (mean : fmat) (k : R), (1 <= t_nb ch)%nat -> (1 <= r_nb ch)%nat -> shape (r_nb ch) (t_nb ch) (m_rows mean) -> m_nan mean = false -> energy_of (m_rows mean) = 0%R \/ (-1 < k < 0)%R -> k <> (-1)%R ->
    exists ch', uncorr_rician ch mean k = (ch', Ok tt) /\ m_nan (f_mean (m_fading ch')) = true.
Proof.
  intros ch mean k Ht Hr Hm Hn H Hk. destruct (rician_nan ch Ht Hr mean k Hm Hn H Hk) as (A & B). rewrite A. eexists. split; [reflexivity|exact B].
Qed.

Lemma C52_mean_gain_proof :
(* the expected energy of every channel matrix drawn by propagate is the energy of the parameters, for any roots sr, st of the correlation matrices *)
  forall (ch : mimo) (sqrtm : list (list C) -> list (list C) * bool) (msg : list C) (mc : bool) (s : R) (W : Type) (E : (W -> R) -> R) (n1 n2 : nat -> nat -> W -> R) (z : bool * (nat * (nat * nat)) -> W -> R),
    let tx := t_nb ch in let rx := r_nb ch in let f := m_fading ch in
    (1 <= tx)%nat -> msg <> [] -> (mc = true -> m_complex ch = true) -> m_std ch = Some (Some s) -> (m_complex ch = false -> snd (sqrtm (f_rr f)) = false /\ snd (sqrtm (f_rt f)) = false) -> m_nan (f_mean f) = false ->
    shape rx tx (m_rows (f_mean f)) -> root_of rx (f_rr f) (fst (sqrtm (f_rr f))) -> root_of tx (f_rt f) (fst (sqrtm (f_rt f))) -> expectation E ->
    exists G : W -> list (list (list C)),
      (forall w, exists ch' out, mimo_propagate sqrtm ch msg mc (fun a i => n1 a i w) (fun a i => n2 a i w) (fun a j k => z (true, (a, (j, k))) w) (fun a j k => z (false, (a, (j, k))) w) = (ch', Ok out) /\ m_gains ch' = Some (Num (G w)) /\ length (G w) = ((length msg + tx - 1) / tx)%nat) /\
      forall a, (a < (length msg + tx - 1) / tx)%nat -> white E (list_prod [true; false] (list_prod [a] (list_prod (seq 0 rx) (seq 0 tx)))) z -> E (fun w => energy_of (nth a (G w) [])) = re (total_energy tx rx f).
Proof.
  intros ch sqrtm msg mc s W E n1 n2 z tx rx f Ht Hne Hc Hs Hcast Hn Hm Rr Rt HE. exists (fun w => map (gains_of sqrtm ch (fun a j k => z (true, (a, (j, k))) w) (fun a j k => z (false, (a, (j, k))) w)) (seq 0 ((length msg + tx - 1) / tx))). split.
  - intros w. destruct (propagate_ok sqrtm ch msg mc (fun a i => n1 a i w) (fun a i => n2 a i w) (fun a j k => z (true, (a, (j, k))) w) (fun a j k => z (false, (a, (j, k))) w) s Hne Hc Ht Hs Hcast Hn) as (ch' & P & PG & _). eexists _, _. split; [exact P|]. split; [exact PG|]. rewrite map_length. apply seq_length.
  - intros a Ha HW. rewrite (ex_ext E HE _ (fun w => energy_of (gain_matrix rx tx (fst (sqrtm (f_rr f))) (fst (sqrtm (f_rt f))) (m_rows (f_mean f)) (drawn (m_complex ch) z a w)))).
    + rewrite (gain_energy E z (m_complex ch) rx tx (f_rr f) (f_rt f)) by assumption. unfold total_energy. cbn [Cadd re ofR]. reflexivity.
    + intros w. rewrite nth_map_seq by exact Ha. reflexivity.
Qed.

Lemma C53_dB_lin_proof :
(* set_SNR_dB(s) is set_SNR_lin(10 ** (s / 10)) *)
  forall (cs : siso) (cm : mimo) (snr rate es : R),
    siso_do cs (SSnrDB snr rate es) = siso_do cs (SSnrLin (Rpower 10 (snr / 10)) rate es) /\ mimo_do cm (MSnrDB snr rate es) = mimo_do cm (MSnrLin (Rpower 10 (snr / 10)) rate es).
Proof.
  intros cs cm snr rate es. split; reflexivity.
Qed.

Lemma C53_siso_noise_proof :
(* SISO: after set_SNR_lin the mean power of each noise sample of propagate is Es / (rate SNR), for real and for complex channels *)
  forall (ch : siso) (snr rate es : R) (msg : list C) (mc : bool) (W : Type) (E : (W -> R) -> R) (n1 n2 : nat -> W -> R) g1 g2, (0 < snr)%R -> (0 < rate)%R -> (0 <= es)%R -> msg <> [] -> (mc = true -> s_complex ch = true) -> expectation E ->
    exists ch1 (eta : W -> list C), siso_do ch (SSnrLin snr rate es) = (ch1, Ok tt) /\
      (forall w, s_noises (fst (siso_propagate ch1 msg mc (fun i => n1 i w) (fun i => n2 i w) g1 g2)) = Some (Num (eta w)) /\ length (eta w) = length msg) /\
      forall i, (i < length msg)%nat -> white E [true; false] (fun b : bool => if b then n1 i else n2 i) -> E (fun w => Cnorm2 (nth i (eta w) C0)) = (es / (rate * snr))%R.
Proof.
  intros ch snr rate es msg mc W E n1 n2 g1 g2 Hs Hr He Hne Hc HE. cbn [siso_do]. destruct (snr_lin (s_complex ch) 1 snr rate es) as [[sd|]|e] eqn:Q.
  2,3: unfold snr_lin in Q; destruct (Req_EM_T _ 0); try discriminate; assert (0 < rate * snr)%R by (apply Rmult_lt_0_compat; assumption); lra.
  destruct (snr_std _ _ _ _ _ _ Hs Hr He Q) as (x & -> & Hx). exists (siso_with_std ch (Some (Some x))), (fun w => map (fun i => noise (s_complex ch) x (n1 i w) (n2 i w)) (seq 0 (length msg))). split; [reflexivity|]. split.
  - intros w. split; [|rewrite map_length; apply seq_length]. unfold siso_propagate. destruct msg as [|m0 ms]; [congruence|]. cbn [siso_with_std s_complex s_std s_fading]. assert (C1' : mc && negb (s_complex ch) = false) by (destruct mc; [rewrite Hc by reflexivity; reflexivity|reflexivity]). rewrite C1'. destruct (s_fading ch) as [[mean cplx] var]. reflexivity.
  - intros i Hi (_ & W2 & _). rewrite (ex_ext E HE _ (fun w => Cnorm2 (noise (s_complex ch) x (n1 i w) (n2 i w)))) by (intros w; rewrite nth_map_seq by exact Hi; reflexivity). rewrite (noise_power E HE _ _ _ _ (W2 true ltac:(cbn; tauto)) (W2 false ltac:(cbn; tauto))). rewrite Hx. cbn [INR]. f_equal. ring.
Qed.

Lemma C53_mimo_noise_proof :
(* MIMO: nb_tx Es / (rate SNR) on every receive antenna *)
  forall (ch : mimo) (snr rate es : R) (msg : list C) (mc : bool) sqrtm (W : Type) (E : (W -> R) -> R) (n1 n2 : nat -> nat -> W -> R) g1 g2, (0 < snr)%R -> (0 < rate)%R -> (0 <= es)%R -> msg <> [] -> (mc = true -> m_complex ch = true) -> (1 <= t_nb ch)%nat -> expectation E ->
    exists ch1 (eta : W -> list (list C)), mimo_do ch (MSnrLin snr rate es) = (ch1, Ok tt) /\
      (forall w, m_noises (fst (mimo_propagate sqrtm ch1 msg mc (fun a i => n1 a i w) (fun a i => n2 a i w) g1 g2)) = Some (Num (eta w))) /\
      forall a i, (a < (length msg + t_nb ch - 1) / t_nb ch)%nat -> (i < r_nb ch)%nat -> white E [true; false] (fun b : bool => if b then n1 a i else n2 a i) -> E (fun w => Cnorm2 (entry (eta w) a i)) = (INR (t_nb ch) * es / (rate * snr))%R.
Proof.
  intros ch snr rate es msg mc sqrtm W E n1 n2 g1 g2 Hs Hr He Hne Hc Ht HE. cbn [mimo_do]. destruct (snr_lin (m_complex ch) (t_nb ch) snr rate es) as [[sd|]|e] eqn:Q.
  2,3: unfold snr_lin in Q; destruct (Req_EM_T _ 0); try discriminate; assert (0 < rate * snr)%R by (apply Rmult_lt_0_compat; assumption); lra.
  destruct (snr_std _ _ _ _ _ _ Hs Hr He Q) as (x & -> & Hx). exists (mimo_with_std ch (Some (Some x))), (fun w => build ((length msg + t_nb ch - 1) / t_nb ch) (r_nb ch) (fun a i => noise (m_complex ch) x (n1 a i w) (n2 a i w))). split; [reflexivity|]. split.
  - intros w. unfold mimo_propagate. destruct msg as [|m0 ms] eqn:Em; [congruence|]. rewrite <- Em in *. clear Em Hne. cbn [mimo_with_std m_complex m_std t_nb r_nb m_fading]. assert (C1' : mc && negb (m_complex ch) = false) by (destruct mc; [rewrite Hc by reflexivity; reflexivity|reflexivity]). rewrite C1'. destruct (Nat.eqb_spec (t_nb ch) 0) as [?|_]; [lia|]. rewrite ceil_eq by exact Ht.
    destruct (sqrtm _) as [sr sc]. destruct (sqrtm _) as [st tc]. destruct (negb (m_complex ch) && (sc || tc)); [reflexivity|]. destruct (m_nan _); reflexivity.
  - intros a i Ha Hi (_ & W2 & _). rewrite (ex_ext E HE _ (fun w => Cnorm2 (noise (m_complex ch) x (n1 a i w) (n2 a i w)))) by (intros w; rewrite build_entry by assumption; reflexivity). rewrite (noise_power E HE _ _ _ _ (W2 true ltac:(cbn; tauto)) (W2 false ltac:(cbn; tauto))). exact Hx.
Qed.

Lemma C53_noise_std_proof :
(* assigning noise_std = s sets the level of the noise and nothing else: the mean power of a noise sample is s^2 on a real channel and
     s^2 / 2 on a complex one; noise_std = None makes propagate raise AssertionError *)
  forall (ch : siso) (s : R) (msg : list C) (mc : bool) (W : Type) (E : (W -> R) -> R) (n1 n2 : nat -> W -> R) g1 g2, msg <> [] -> (mc = true -> s_complex ch = true) -> expectation E ->
    (exists ch1 (eta : W -> list C), siso_do ch (SStd (Some s)) = (ch1, Ok tt) /\ s_fading ch1 = s_fading ch /\ s_complex ch1 = s_complex ch /\ s_noises ch1 = s_noises ch /\ s_gains ch1 = s_gains ch /\ s_unnoisy ch1 = s_unnoisy ch /\
      (forall w, s_noises (fst (siso_propagate ch1 msg mc (fun i => n1 i w) (fun i => n2 i w) g1 g2)) = Some (Num (eta w)) /\ length (eta w) = length msg) /\
      forall i, (i < length msg)%nat -> white E [true; false] (fun b : bool => if b then n1 i else n2 i) -> E (fun w => Cnorm2 (nth i (eta w) C0)) = (if s_complex ch then s * s / 2 else s * s)%R) /\
    exists ch1, siso_do ch (SStd None) = (ch1, Ok tt) /\ s_fading ch1 = s_fading ch /\ forall w, snd (siso_propagate ch1 msg mc (fun i => n1 i w) (fun i => n2 i w) g1 g2) = Err AssertionError.
Proof.
  intros ch s msg mc W E n1 n2 g1 g2 Hne Hc HE. assert (C1' : mc && negb (s_complex ch) = false) by (destruct mc; [rewrite Hc by reflexivity; reflexivity|reflexivity]). split.
  - exists (siso_with_std ch (Some (Some s))), (fun w => map (fun i => noise (s_complex ch) s (n1 i w) (n2 i w)) (seq 0 (length msg))). do 6 (split; [reflexivity|]). split.
    + intros w. split; [|rewrite map_length; apply seq_length]. unfold siso_propagate. destruct msg as [|m0 ms]; [congruence|]. cbn [siso_with_std s_complex s_std s_fading]. rewrite C1'. destruct (s_fading ch) as [[mean cplx] var]. reflexivity.
    + intros i Hi (_ & W2 & _). rewrite (ex_ext E HE _ (fun w => Cnorm2 (noise (s_complex ch) s (n1 i w) (n2 i w)))) by (intros w; rewrite nth_map_seq by exact Hi; reflexivity). exact (noise_power E HE _ _ _ _ (W2 true ltac:(cbn; tauto)) (W2 false ltac:(cbn; tauto))).
  - exists (siso_with_std ch None). split; [reflexivity|]. split; [reflexivity|]. intros w. unfold siso_propagate. destruct msg as [|m0 ms]; [congruence|]. cbn [siso_with_std s_complex s_std s_fading]. rewrite C1'. reflexivity.
Qed.

Lemma C53_noise_std_mimo_proof :
(* the same for MIMO channels, on every receive antenna *)
  forall (ch : mimo) (s : R) (msg : list C) (mc : bool) sqrtm (W : Type) (E : (W -> R) -> R) (n1 n2 : nat -> nat -> W -> R) g1 g2, msg <> [] -> (mc = true -> m_complex ch = true) -> (1 <= t_nb ch)%nat -> expectation E ->
    (exists ch1 (eta : W -> list (list C)), mimo_do ch (MStd (Some s)) = (ch1, Ok tt) /\ m_fading ch1 = m_fading ch /\ m_complex ch1 = m_complex ch /\ t_nb ch1 = t_nb ch /\ r_nb ch1 = r_nb ch /\
      (forall w, m_noises (fst (mimo_propagate sqrtm ch1 msg mc (fun a i => n1 a i w) (fun a i => n2 a i w) g1 g2)) = Some (Num (eta w))) /\
      forall a i, (a < (length msg + t_nb ch - 1) / t_nb ch)%nat -> (i < r_nb ch)%nat -> white E [true; false] (fun b : bool => if b then n1 a i else n2 a i) -> E (fun w => Cnorm2 (entry (eta w) a i)) = (if m_complex ch then s * s / 2 else s * s)%R) /\
    exists ch1, mimo_do ch (MStd None) = (ch1, Ok tt) /\ m_fading ch1 = m_fading ch /\ forall w, snd (mimo_propagate sqrtm ch1 msg mc (fun a i => n1 a i w) (fun a i => n2 a i w) g1 g2) = Err AssertionError.
Proof.
  intros ch s msg mc sqrtm W E n1 n2 g1 g2 Hne Hc Ht HE. assert (C1' : mc && negb (m_complex ch) = false) by (destruct mc; [rewrite Hc by reflexivity; reflexivity|reflexivity]). split.
  - exists (mimo_with_std ch (Some (Some s))), (fun w => build ((length msg + t_nb ch - 1) / t_nb ch) (r_nb ch) (fun a i => noise (m_complex ch) s (n1 a i w) (n2 a i w))). do 5 (split; [reflexivity|]). split.
    + intros w. unfold mimo_propagate. destruct msg as [|m0 ms] eqn:Em; [congruence|]. rewrite <- Em in *. clear Em Hne. cbn [mimo_with_std m_complex m_std t_nb r_nb m_fading]. rewrite C1'. destruct (Nat.eqb_spec (t_nb ch) 0) as [?|_]; [lia|]. rewrite ceil_eq by exact Ht.
      destruct (sqrtm _) as [sr sc]. destruct (sqrtm _) as [st tc]. destruct (negb (m_complex ch) && (sc || tc)); [reflexivity|]. destruct (m_nan _); reflexivity.
    + intros a i Ha Hi (_ & W2 & _). rewrite (ex_ext E HE _ (fun w => Cnorm2 (noise (m_complex ch) s (n1 a i w) (n2 a i w)))) by (intros w; rewrite build_entry by assumption; reflexivity). exact (noise_power E HE _ _ _ _ (W2 true ltac:(cbn; tauto)) (W2 false ltac:(cbn; tauto))).
  - exists (mimo_with_std ch None). split; [reflexivity|]. split; [reflexivity|]. intros w. unfold mimo_propagate. destruct msg as [|m0 ms] eqn:Em; [congruence|]. cbn [mimo_with_std m_complex m_std t_nb r_nb m_fading]. rewrite C1'. destruct (Nat.eqb_spec (t_nb ch) 0) as [?|_]; [lia|reflexivity].
Qed.

Lemma C53_type_change_proof :
(* the noise level is not adapted when the channel later changes between real and complex: for the same noise_std the mean noise power of a
     complex channel is half that of a real one *)
  forall (s : R) (W : Type) (E : (W -> R) -> R) (a b : W -> R), expectation E -> white E [true; false] (fun x : bool => if x then a else b) ->
    (E (fun w => Cnorm2 (noise false s (a w) (b w))) = 2 * E (fun w => Cnorm2 (noise true s (a w) (b w))))%R /\
    forall (ch : mimo) (cplx : bool), m_std (fst (mimo_do ch (MRayleigh cplx))) = m_std ch.
Proof.
  intros s W E a b HE (_ & W2 & _). split.
  - rewrite !(noise_power E HE _ _ _ _ (W2 true ltac:(cbn; tauto)) (W2 false ltac:(cbn; tauto))). field.
  - intros ch cplx. cbn [mimo_do]. unfold uncorr_rayleigh, mimo_set. destruct (_ && _); [reflexivity|]. destruct (m_rows _) as [|[|z row] rows]; reflexivity.
Qed.

Lemma C53_awgn_proof :
(* awgn: output = input + noise, mean noise power = mean signal power / (rate SNR), real or complex *)
  forall (sg : list C) (cplx : bool) (snr rate : R) (W : Type) (E : (W -> R) -> R) (a b : nat -> W -> R), sg <> [] -> (0 < rate)%R -> expectation E ->
    exists eta : nat -> W -> C, (forall w, awgn sg cplx snr rate (fun i => a i w) (fun i => b i w) = Ok (Num (map (fun i => (nth i sg C0 + eta i w)%C) (seq 0 (length sg))))) /\
      forall i, white E [true; false] (fun x : bool => if x then a i else b i) -> E (fun w => Cnorm2 (eta i w)) = (Rsum (map Cnorm2 sg) / INR (length sg) / (rate * Rpower 10 (snr / 10)))%R.
Proof.
  intros sg cplx snr rate W E a b Hne Hr HE. assert (U : forall X Y : res (nums (list C)), match sg with [] => X | _ => Y end = Y) by (destruct sg; [congruence|reflexivity]). set (av := (Rsum (map Cnorm2 sg) / INR (length sg))%R). pose proof (Rpower_pos 10 (snr / 10)) as HP. set (x := Rpower 10 (snr / 10)) in *.
  assert (Hav : (0 <= av)%R). { apply Rmult_le_pos; [apply Rsum_nonneg; intros y Hy; apply in_map_iff in Hy as (z & <- & _); apply Cnorm2_nonneg|]. apply Rlt_le, Rinv_0_lt_compat, lt_0_INR. destruct sg; [congruence|cbn; lia]. }
  assert (Hrx : (0 < rate * x)%R) by (apply Rmult_lt_0_compat; assumption). set (q := sqrt (if cplx then av / (2 * rate * x) else 2 * (av / (2 * rate * x)))). assert (H0 : (0 <= av / (2 * rate * x))%R) by (apply Rmult_le_pos; [exact Hav|apply Rlt_le, Rinv_0_lt_compat; lra]).
  assert (Hq : (q * q = if cplx then av / (2 * rate * x) else 2 * (av / (2 * rate * x)))%R) by (apply sqrt_sqrt; destruct cplx; lra).
  exists (fun i w => if cplx then (ofR (q * a i w) + Cscale (q * b i w) Ci)%C else ofR (q * a i w)). split.
  - intros w. unfold awgn. rewrite U. assert (EA : Rsum (map (fun s => (Cabs s * Cabs s)%R) sg) = Rsum (map Cnorm2 sg)) by (apply Rsum_map_ext; intros; apply Cabs_sqr). rewrite EA. fold av x. destruct (Req_EM_T _ 0); [lra|]. unfold np_sqrt. destruct (Rlt_dec _ 0) as [L|_]; [exfalso; destruct cplx; lra|]. fold q. do 2 f_equal.
    rewrite (combine_seq sg 0%nat C0) || idtac. assert (X : combine (seq 0 (length sg)) sg = map (fun i => (i, nth i sg C0)) (seq 0 (length sg))) by (rewrite <- (map_nth_seq_id sg C0) at 2; rewrite <- (map_id (seq 0 (length sg))) at 1; apply combine_same). rewrite X, map_map. cbn [fst snd]. apply map_ext. intros i. destruct cplx; reflexivity.
  - intros i (_ & W2 & _). pose proof (W2 true ltac:(cbn; tauto)) as A2. pose proof (W2 false ltac:(cbn; tauto)) as B2. cbv beta iota in A2, B2. destruct cplx.
    + rewrite (ex_ext E HE _ (fun w => q * q * (a i w * a i w) + q * q * (b i w * b i w))%R) by (intros w; unfold Cnorm2, Cadd, Cscale, ofR, Ci; cbn [re im]; ring). rewrite (E_lin2 E HE), A2, B2, Hq. field. lra.
    + rewrite (ex_ext E HE _ (fun w => q * q * (a i w * a i w))%R) by (intros w; unfold Cnorm2, ofR; cbn [re im]; ring). rewrite (ex_mul E HE), A2, Hq. field. lra.
Qed.

Lemma C54_propagate_proof :
(* vector number a of the message, completed with zeros, is multiplied by its own channel matrix; the noise is added *)
  forall (ch : mimo) (sqrtm : list (list C) -> list (list C) * bool) (msg : list C) (mc : bool) (s : R) n1 n2 g1 g2, let tx := t_nb ch in let rx := r_nb ch in let f := m_fading ch in
    (1 <= tx)%nat -> msg <> [] -> (mc = true -> m_complex ch = true) -> m_std ch = Some (Some s) -> (m_complex ch = false -> snd (sqrtm (f_rr f)) = false /\ snd (sqrtm (f_rt f)) = false) -> m_nan (f_mean f) = false ->
    exists ch' out gains unnoisy eta, mimo_propagate sqrtm ch msg mc n1 n2 g1 g2 = (ch', Ok (Num out)) /\ m_gains ch' = Some (Num gains) /\ m_unnoisy ch' = Some (Num unnoisy) /\ m_noises ch' = Some (Num eta) /\
      let nb := ((length msg + tx - 1) / tx)%nat in length gains = nb /\ shape nb rx out /\ shape nb rx unnoisy /\ shape nb rx eta /\ m_fading ch' = f /\
      forall a, (a < nb)%nat -> shape rx tx (nth a gains []) /\ forall i, (i < rx)%nat ->
        entry unnoisy a i = apply_row (nth i (nth a gains []) []) (map (fun k => nth (a * tx + k) msg C0) (seq 0 tx)) /\ entry out a i = (entry unnoisy a i + entry eta a i)%C /\ (s = 0%R -> entry out a i = entry unnoisy a i).
Proof.
  intros ch sqrtm msg mc s n1 n2 g1 g2 tx rx f Ht Hne Hc Hs Hcast Hn. destruct (propagate_ok sqrtm ch msg mc n1 n2 g1 g2 s Hne Hc Ht Hs Hcast Hn) as (ch' & P & PG & PU & PN & _ & _ & PF & _ & _). eexists ch', _, _, _, _. split; [exact P|]. split; [exact PG|]. split; [exact PU|]. split; [exact PN|]. fold tx rx. cbv zeta. set (nb := ((length msg + tx - 1) / tx)%nat).
  assert (SM : forall g : nat -> list C, (forall a, length (g a) = rx) -> shape nb rx (map g (seq 0 nb))) by (intros g Hg; split; [rewrite map_length; apply seq_length|apply Forall_map, Forall_forall; intros a _; apply Hg]).
  split; [rewrite map_length; apply seq_length|]. split; [apply SM; intros a; rewrite map_length; apply seq_length|]. split; [apply SM; intros a; unfold unnoisy_of; rewrite map_length; apply seq_length|]. split; [apply SM; intros a; rewrite map_length; apply seq_length|]. split; [exact PF|].
  intros a Ha. rewrite nth_map_seq by exact Ha. split; [apply gain_shape|]. intros i Hi. unfold entry. rewrite !nth_map_seq by assumption. assert (U : nth i (unnoisy_of sqrtm ch msg g1 g2 a) C0 = apply_row (nth i (gains_of sqrtm ch g1 g2 a) []) (map (fun k => nth (a * tx + k) msg C0) (seq 0 tx))) by (unfold unnoisy_of; rewrite nth_map_seq by exact Hi; reflexivity).
  split; [exact U|]. split; [reflexivity|]. intros ->. unfold noise. destruct (m_complex ch); creal.
Qed.

Lemma C54_errors_proof :
forall (ch : mimo) (sqrtm : list (list C) -> list (list C) * bool) (m : C) (msg : list C) (mc : bool) n1 n2 g1 g2,
    mimo_propagate sqrtm ch [] mc n1 n2 g1 g2 = (ch, Err IndexError) /\ (m_complex ch = false -> mimo_propagate sqrtm ch (m :: msg) true n1 n2 g1 g2 = (ch, Err TypeError)) /\
    (m_std ch = None -> (1 <= t_nb ch)%nat -> (mc = true -> m_complex ch = true) -> mimo_propagate sqrtm ch (m :: msg) mc n1 n2 g1 g2 = (ch, Err AssertionError)).
Proof.
  intros ch sqrtm m msg mc n1 n2 g1 g2. split; [reflexivity|]. split.
  - intros H. unfold mimo_propagate. rewrite H. reflexivity.
  - intros H Ht Hc. unfold mimo_propagate. assert (C1' : mc && negb (m_complex ch) = false) by (destruct mc; [rewrite Hc by reflexivity; reflexivity|reflexivity]). rewrite C1', H. destruct (Nat.eqb_spec (t_nb ch) 0); [lia|reflexivity].
Qed.

Lemma C64_valid_correlation_proof :
(* for |t| = |r| = 1 and nonnegative betas the correlation matrices are Hermitian and positive, as a matrix square root needs *)
  forall (ch : mimo) (t r : C) (bt br : R), (1 <= t_nb ch)%nat -> (1 <= r_nb ch)%nat -> Cabs t = 1%R -> Cabs r = 1%R -> (0 <= bt)%R -> (0 <= br)%R ->
    let good (o : mimo * res unit) := exists ch', o = (ch', Ok tt) /\ hermitian (t_nb ch) (f_rt (m_fading ch')) /\ positive (t_nb ch) (f_rt (m_fading ch')) /\ hermitian (r_nb ch) (f_rr (m_fading ch')) /\ positive (r_nb ch) (f_rr (m_fading ch')) in
    good (expo_rayleigh ch t r bt br) /\
    forall (mean : fmat) (k : R), shape (r_nb ch) (t_nb ch) (m_rows mean) -> m_nan mean = false -> energy_of (m_rows mean) <> 0%R -> (0 <= k)%R -> good (expo_rician ch mean k t r bt br).
Proof.
  intros ch t r bt br Ht Hr H1 H2 H3 H4 good. split.
  - unfold good. destruct (expo_rayleigh_ok ch Ht Hr t r bt br ltac:(lra) ltac:(lra) H3 H4) as (A & _ & _). rewrite A. eexists. split; [reflexivity|]. cbn [mimo_with m_fading expo_fb f_rt f_rr]. rewrite !corr_rayleigh. repeat split; try (apply corr_hermitian; assumption); apply corr_positive; assumption || lra.
  - intros mean k Hm Hn He Hk. unfold good. destruct (expo_rician_ok ch Ht Hr mean k Hm Hn t r bt br Hk He ltac:(lra) ltac:(lra) H3 H4) as (A & _). rewrite A. eexists. split; [reflexivity|]. cbn [mimo_with m_fading rice_b rice f_rt f_rr]. rewrite corr_rayleigh, corr_rice.
    assert (S0 : (0 <= INR (mat_size (m_rows mean)) / (k + 1) / INR (mat_size (m_rows mean)))%R). { pose proof (N_pos ch Ht Hr mean Hm Hn). apply Rlt_le. apply Rdiv_lt_0_compat; [|assumption]. apply Rdiv_lt_0_compat; lra. }
    repeat split; try (apply corr_hermitian; assumption); apply corr_positive; assumption || lra.
Qed.

Lemma C64_small_t_refuted_proof :
(* |t| < 1 is accepted although documented as an error; the transmit correlation matrix is then not Hermitian and has entries above 1 *)
  ~ (forall (ch ch' : mimo) (t r : C), (1 <= t_nb ch)%nat -> (1 <= r_nb ch)%nat -> expo_rayleigh ch t r 0 0 = (ch', Ok tt) -> Cabs t = 1%R)
  /\ exists (ch ch' : mimo) (t r : C), expo_rayleigh ch t r 0 0 = (ch', Ok tt) /\ ~ hermitian (t_nb ch) (f_rt (m_fading ch')) /\ entry (f_rt (m_fading ch')) 1 0 = ofR 2.
Proof.
  set (ch := {| t_nb := 2; r_nb := 1; m_std := None; m_fading := {| f_mean := plain [] false; f_rt := []; f_rr := [] |}; m_complex := false; m_noises := None; m_gains := None; m_unnoisy := None |}).
  assert (A1 : Cabs (ofR (1 / 2)) = (1 / 2)%R). { unfold Cabs, Cnorm2, ofR. cbn [re im]. replace (1 / 2 * (1 / 2) + 0 * 0)%R with (1 / 2 * (1 / 2))%R by ring. apply sqrt_square. lra. } assert (A2 : Cabs C1 = 1%R) by (unfold Cabs, Cnorm2, C1; cbn [re im]; rewrite Rmult_1_l, Rmult_0_l, Rplus_0_r; apply sqrt_1).
  destruct (C52_rayleigh_proof ch ltac:(cbn; lia) ltac:(cbn; lia)) as (_ & H & _). destruct (H (ofR (1 / 2)) C1 0%R 0%R ltac:(intros F; apply (f_equal re) in F; cbn in F; lra) ltac:(intros F; apply (f_equal re) in F; cbn in F; lra) ltac:(lra) ltac:(lra) ltac:(lra) ltac:(lra)) as (ch' & E & _ & _ & _ & T & _).
  assert (X : entry (f_rt (m_fading ch')) 1 0 = ofR 2). { rewrite T by (cbn; lia). change (Z.of_nat 0 - Z.of_nat 1) with (-1). replace (- 0 * Rabs (INR 0 - INR 1))%R with 0%R by ring. rewrite exp_0. unfold CpowZ. change (0 <=? -1) with false. change (Z.to_nat (- -1)) with 1%nat. cbv iota. unfold Cpow, Crecip, Cnorm2, Cmul, ofR, C1. cbn [re im]. f_equal; field. }
  split.
  - intros F. specialize (F ch ch' (ofR (1 / 2)) C1 ltac:(cbn; lia) ltac:(cbn; lia) E). lra.
  - exists ch, ch', (ofR (1 / 2)), C1. split; [exact E|]. split; [|exact X]. intros F. specialize (F 1%nat 0%nat ltac:(cbn; lia) ltac:(cbn; lia)). rewrite X in F. rewrite T in F by (cbn; lia). change (Z.of_nat 1 - Z.of_nat 0) with 1 in F. replace (- 0 * Rabs (INR 1 - INR 0))%R with 0%R in F by ring. rewrite exp_0 in F. unfold CpowZ in F. change (0 <=? 1) with true in F. change (Z.to_nat 1) with 1%nat in F. cbv iota in F. unfold Cpow, Cconj, Cmul, ofR, C1 in F. cbn [re im] in F. injection F as F _. lra.
Qed.

Lemma C64_specular_proof :
(* specular_compo: every entry has magnitude 1, so its energy is nb_rx nb_tx; a negative distance raises ValueError *)
  forall (ch : mimo) (thetat dt thetar dr : R),
    ((0 <= dt)%R -> (0 <= dr)%R -> exists H, specular_compo ch thetat dt thetar dr = Ok H /\ shape (r_nb ch) (t_nb ch) H /\ energy_of H = (INR (r_nb ch) * INR (t_nb ch))%R /\
       forall n m, (n < r_nb ch)%nat -> (m < t_nb ch)%nat -> entry H n m = cis (2 * PI * (INR n * dr * cos thetar + INR m * dt * cos thetat))) /\
    (dt < 0 \/ dr < 0 -> specular_compo ch thetat dt thetar dr = Err ValueError)%R.
Proof.
  intros ch thetat dt thetar dr. unfold specular_compo. split.
  - intros H1 H2. destruct (Rlt_dec dr 0); [lra|]. destruct (Rlt_dec dt 0); [lra|]. cbn [orb]. eexists. split; [reflexivity|]. fold (build (r_nb ch) (t_nb ch) (fun n m => cis (2 * PI * (INR n * dr * cos thetar + INR m * dt * cos thetat)))). split; [apply build_shape|]. split; [|intros n' m' Hn Hm; apply build_entry; assumption].
    rewrite (energy_entries (r_nb ch) (t_nb ch)) by apply build_shape. rewrite (Rsum_map_ext _ (fun _ => INR (t_nb ch))); [rewrite Rsum_const, seq_length; reflexivity|]. intros i Hi. apply in_seq in Hi. rewrite (Rsum_map_ext _ (fun _ => 1%R)); [rewrite Rsum_const, seq_length; ring|]. intros j Hj. apply in_seq in Hj. rewrite build_entry by lia. apply Cnorm2_cis.
  - intros H. destruct (Rlt_dec dr 0); [reflexivity|]. destruct (Rlt_dec dt 0); [reflexivity|]. destruct H; lra.
Qed.

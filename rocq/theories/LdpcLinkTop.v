(* Proofs of the property C77: LDPC-coded MIMO links. *)
From Coq Require Import Reals Lra Permutation.
From Verif Require Import Base UtilModel UtilProofs LinksModel LinksSpec LinksProofs LinksTop WifiModel WifiProofs
  Cplx ModemModel ModemSpec ModemProofs ModemNoise ModemTop MimoModel MimoSpec MimoProofs MimoTop ChannelModel ChannelSpec ChannelHist ChainTop
  UncodedLinkModel UncodedLinkSpec UncodedLinkTop LdpcLinkModel LdpcLinkSpec.
From Verif Require LdpcModel LdpcSpec LdpcTop LdpcDecModel LdpcBPSpec.
Local Open Scope Z_scope.

Lemma Forall2_concat : forall {A B} (P : A -> B -> Prop) ls ms, Forall2 (Forall2 P) ls ms -> Forall2 P (concat ls) (concat ms).
Proof. intros A B P ls ms H. induction H as [|l m ls ms H1 H2 IH]; [constructor|]. cbn [concat]. apply Forall2_app; assumption. Qed.
Lemma Forall2_map_seq : forall {A B} (P : A -> B -> Prop) f g n, (forall i, (i < n)%nat -> P (f i) (g i)) -> Forall2 P (map f (seq 0 n)) (map g (seq 0 n)).
Proof.
  intros A B P f g n H. assert (G : forall l, (forall i, In i l -> P (f i) (g i)) -> Forall2 P (map f l) (map g l)) by (induction l as [|i l IH]; intros F; cbn [map]; constructor; [apply F; left; reflexivity|apply IH; intros j Hj; apply F; right; exact Hj]).
  apply G. intros i Hi. apply in_seq in Hi. apply H. lia.
Qed.
Lemma signs_hard : forall bs l, right_signs bs l -> map (fun x => Z.b2z (LdpcBPSpec.negative (LdpcBPSpec.clip500 x))) l = bs.
Proof.
  intros bs l H. induction H as [|b x bs l H1 H2 IH]; [reflexivity|]. cbn [map]. rewrite IH. f_equal. unfold LdpcBPSpec.negative, LdpcBPSpec.clip500, Rmax, Rmin.
  destruct H1 as [[-> H]|[-> H]]; repeat (destruct (Rle_dec _ _) || destruct (Rlt_dec _ _)); try reflexivity; exfalso; lra.
Qed.
Lemma right_signs_length : forall bs l, right_signs bs l -> length l = length bs.
Proof. intros bs l H. induction H; cbn [length]; congruence. Qed.
Lemma firstn_blocks : forall {A} k n (blocks : list (list A)), (k <= n)%nat -> Forall (fun b => length b = n) blocks -> length (concat (map (firstn k) blocks)) = (length blocks * k)%nat.
Proof.
  intros A k n blocks Hk HF. rewrite (concat_len k); [rewrite map_length; reflexivity|]. apply Forall_map. eapply Forall_impl; [|exact HF]. intros b Hb. cbv beta in Hb. rewrite firstn_length. lia.
Qed.

Section CSends.
Variables (dr : mimo_draws) (sqrtm : list (list C) -> list (list C) * bool) (c : list C) (g : bool) (md : modem) (detect : nat -> list C -> list (list C) -> res (list R)) (empty : nat -> R)
          (ch : mimo) (s : R) (algo : LdpcDecModel.algorithm) (n_iters : nat) (p q : Z) (code code' : LdpcModel.ldpc) (H : LdpcModel.arr2).
Let tx := t_nb ch. Let rx := r_nb ch.
Let n := LdpcModel.a_cols H. Let k := (LdpcModel.a_cols H - length (LdpcModel.a_rows H))%nat.
Let HH := drawn_matrix dr sqrtm ch.
Let lk := coded_link dr sqrtm md detect algo n_iters k p q empty tx.
Hypothesis EI : modem_init c g = Ok md.
Hypothesis ND : NoDup c.
Hypothesis Hc : (2 <= length c)%nat.
Hypothesis Ht : (1 <= tx)%nat.
Hypothesis Hnan : m_nan (f_mean (m_fading ch)) = false.
Hypothesis Hdet : forall t a bs x, bits bs -> length bs = (tx * num_bits md)%nat -> modulate md bs = Ok x ->
  exists l, detect (S t) (map (fun i => (apply_row (nth i (HH t a) []) x + drawn_noise dr s t a i)%C) (seq 0 rx)) (HH t a) = Ok l /\ right_signs bs l.
Hypothesis HR : In (p, q) [(1, 2); (2, 3); (3, 4); (5, 6)].
Hypothesis Hkn : Z.of_nat k * q = Z.of_nat n * p.
Hypothesis Hk : (1 <= k <= n)%nat.
Hypothesis HBin : LdpcSpec.binary H.
Hypothesis EM : LdpcModel.p_matrix code' = Some H.
Hypothesis Ev : LdpcModel.n_vnodes code' = n.
Hypothesis Henc : forall msg, bits msg -> (length msg mod k = 0)%nat -> exists blocks, LdpcSpec.coded H msg blocks /\ forall cd, cd = code \/ cd = code' -> LdpcModel.triang_encode msg cd false = (code', Ok blocks).
Definition cInv (w : coded_world) : Prop :=
  t_nb (lw_channel w) = tx /\ r_nb (lw_channel w) = rx /\ m_fading (lw_channel w) = m_fading ch /\ m_complex (lw_channel w) = true /\ m_std (lw_channel w) = Some (Some s) /\ (lw_code w = code \/ lw_code w = code').

Lemma coded_sends : forall M N w, (0 < N)%nat -> (M mod k = 0)%nat -> Z.of_nat M * q = Z.of_nat (N * (tx * num_bits md)) * p -> Z.of_nat (N * (tx * num_bits md)) < 2 ^ 50 -> cInv w ->
  exists msg w', transmit lk w M = Ok (msg, msg, w') /\ length msg = M /\ bits msg /\ cInv w'.
Proof.
  intros M N w HN HM HMN Hbig (I1 & I2 & I3 & I4 & I5 & I6). destruct (init_ready _ _ _ EI ND Hc) as (HW & NDp & Hb1 & HP). set (b := num_bits md) in *. set (t := lw_sent w).
  assert (Hq : 0 < p /\ 0 < q) by (destruct HR as [E|[E|[E|[E|[]]]]]; injection E as <- <-; lia). destruct Hq as [Hp Hq].
  set (msg := map (fun i => Z.b2z (u_bits dr t i)) (seq 0 M)).
  assert (Hb : bits msg). { apply Forall_forall. intros x Hx. apply in_map_iff in Hx. destruct Hx as (i & <- & _). destruct (u_bits dr t i); [right|left]; reflexivity. }
  assert (HL : length msg = M) by (unfold msg; rewrite map_length, seq_length; reflexivity).
  destruct (Henc msg Hb ltac:(rewrite HL; exact HM)) as (blocks & Hcod & Etr). destruct Hcod as [(z & Hz & Ecat) HF]. fold n in HF. fold k in Hz, Ecat.
  assert (HLb : Forall (fun x => length x = n) blocks) by (eapply Forall_impl; [|exact HF]; intros x Hx; apply Hx).
  assert (Lk : (length blocks * k = M + z)%nat). { rewrite <- (firstn_blocks k n blocks ltac:(lia) HLb), Ecat, app_length, repeat_length, HL. reflexivity. }
  assert (z = 0%nat). { apply (Nat.mod_divide M k) in HM; [|lia]. destruct HM as (j & Hj). rewrite Hj in Lk. clear - Lk Hz. set (l := length blocks) in *. clearbody l. revert Lk Hz. generalize k. intros k0 Lk Hz. destruct (Nat.lt_trichotomy l j) as [F|[F|F]]; [nia|subst; lia|nia]. } subst z. cbn [repeat] in Ecat. rewrite app_nil_r in Ecat. rewrite Nat.add_0_r in Lk.
  set (cb := concat blocks). assert (Lcb : length cb = (N * (tx * b))%nat). { unfold cb. rewrite (concat_len n _ HLb). apply Nat2Z.inj. rewrite <- Lk in HMN. rewrite Nat2Z.inj_mul in HMN |- *. nia. }
  assert (Hcb : bits cb). { unfold bits, cb. apply Forall_forall. intros x Hx. apply in_concat in Hx. destruct Hx as (bl & Hbl & Hxb). rewrite Forall_forall in HF. destruct (HF bl Hbl) as (_ & Hbb & _). unfold bits in Hbb. rewrite Forall_forall in Hbb. exact (Hbb x Hxb). }
  assert (M0 : (0 < M)%nat) by nia.
  destruct (modulate_vector md cb N tx 0 HW Hb1 Hcb Ht Lcb HN) as (sy & Em & Ls & _ & Hsy).
  assert (Hv : forall a, (a < N)%nat -> modulate md (slice cb (a * (tx * b)) (a * (tx * b) + tx * b)) = Ok (vect tx sy a)).
  { intros a Ha. destruct (modulate_vector md cb N tx a HW Hb1 Hcb Ht Lcb Ha) as (sy' & Em' & _ & Ev' & _). rewrite Em in Em'. injection Em' as <-. exact Ev'. }
  assert (Hne : sy <> []) by (intros ->; cbn in Ls; nia).
  destruct (propagate_ok sqrtm (lw_channel w) sy true (u_n1 dr t) (u_n2 dr t) (u_g1 dr t) (u_g2 dr t) s Hne (fun _ => I4) ltac:(rewrite I1; exact Ht) I5) as (ch' & EP & PG & _ & _ & J1 & J2 & J3 & J4 & J5); [rewrite I4; discriminate|rewrite I3; exact Hnan|].
  assert (Enb : ((length sy + t_nb (lw_channel w) - 1) / t_nb (lw_channel w) = N)%nat) by (rewrite I1, Ls; symmetry; apply (Nat.div_unique _ _ _ (tx - 1)); nia). rewrite Enb in EP, PG. rewrite I2, I4 in EP.
  assert (EG : forall a, gains_of sqrtm (lw_channel w) (u_g1 dr t) (u_g2 dr t) a = HH t a) by (intros a; apply drawn_is; assumption).
  set (yv := fun a => map (fun i => (apply_row (nth i (HH t a) []) (vect tx sy a) + drawn_noise dr s t a i)%C) (seq 0 rx)).
  assert (EO : map (fun a => map (fun i => (nth i (unnoisy_of sqrtm (lw_channel w) sy (u_g1 dr t) (u_g2 dr t) a) C0 + noise true s (u_n1 dr t a i) (u_n2 dr t a i))%C) (seq 0 rx)) (seq 0 N) = map yv (seq 0 N)).
  { apply map_ext. intros a. apply map_ext_in. intros i Hi. apply in_seq in Hi. unfold unnoisy_of. rewrite I2, nth_map_seq by lia. rewrite EG, I1. f_equal. unfold noise, drawn_noise, Cscale. cbn [re im]. f_equal; field. }
  rewrite EO in EP. assert (EGs : map (gains_of sqrtm (lw_channel w) (u_g1 dr t) (u_g2 dr t)) (seq 0 N) = map (HH t) (seq 0 N)) by (apply map_ext; exact EG). rewrite EGs in PG.
  set (w1 := {| lw_channel := lw_channel w; lw_sent := lw_sent w; lw_code := code' |}).
  set (w' := {| lw_channel := ch'; lw_sent := S t; lw_code := code' |}). exists msg, w'. split; [|split; [exact HL|split; [exact Hb|]]].
  - assert (T1 : l_choice lk w M = (msg, w)) by reflexivity.
    assert (T2 : l_modulate lk w msg = Ok (sy, w1)) by (cbn [lk coded_link l_modulate]; rewrite (Etr _ I6); fold cb; rewrite Em; reflexivity).
    assert (T3 : l_propagate lk w1 sy = Ok (map yv (seq 0 N), map (HH t) (seq 0 N), w')) by (cbn [lk coded_link l_propagate w1 lw_channel lw_sent lw_code]; fold t; rewrite EP, PG; reflexivity).
    set (rs := fun a => match detect (S t) (yv a) (HH t a) with Ok l => l | Err _ => [] end).
    assert (RS : forall a, (a < N)%nat -> detect (S t) (yv a) (HH t a) = Ok (rs a) /\ right_signs (slice cb (a * (tx * b)) (a * (tx * b) + tx * b)) (rs a)).
    { intros a Ha. destruct (Hdet t a (slice cb (a * (tx * b)) (a * (tx * b) + tx * b)) (vect tx sy a)) as (l & El & Sl); [apply bits_slice; exact Hcb|rewrite slice_length by nia; lia|apply Hv, Ha|]. fold (yv a) in El. unfold rs. rewrite El. auto. }
    destruct (C56_transmission_proof _ _ _ _ _ _ lk w w w1 w' M msg sy (map yv (seq 0 N)) (map (HH t) (seq 0 N)) T1 T2 T3) as (_ & X). cbn [lk coded_link is_mimo nb_tx num_bits_symbol l_received_len l_receive1 l_decoder] in X. fold b in X.
    rewrite !map_length, !seq_length, HL in X. rewrite (received_len_exact p q (Z.of_nat M) (Z.of_nat (N * (tx * b))) HR ltac:(nia) HMN), Nat2Z.id in X. specialize (X eq_refl eq_refl ltac:(lia) rs). rewrite X; clear X.
    + replace (N * (tx * b) - tx * b * N)%nat with 0%nat by lia. cbn [seq map]. rewrite app_nil_r. set (llrs := concat (map rs (seq 0 N))).
      assert (SG : right_signs cb llrs). { rewrite <- (concat_slices cb N (tx * b) Lcb). unfold llrs. apply Forall2_concat. apply Forall2_map_seq. intros a Ha. apply RS, Ha. }
      pose proof (signs_hard cb llrs SG) as HD. pose proof (right_signs_length cb llrs SG) as LL. cbn [w' lw_code lw_channel lw_sent].
      assert (CH : map (map (fun x => Z.b2z (LdpcDecModel.n_signbit LdpcBPSpec.real_ops x))) (LdpcModel.chunks n (length blocks) (map (LdpcDecModel.n_clip LdpcBPSpec.real_ops) llrs)) = blocks).
      { rewrite <- chunks_map, map_map. cbn [LdpcBPSpec.real_ops LdpcDecModel.n_signbit LdpcDecModel.n_clip]. etransitivity; [apply f_equal; exact HD|]. apply chunks_blocks. exact HLb. }
      rewrite (LdpcTop.C39_codeword_proof LdpcBPSpec.real_ops code' H algo n_iters (length blocks) llrs HBin EM Ev); fold n; [|lia|nia|etransitivity; [exact LL|unfold cb; apply concat_len; exact HLb]|].
      * cbn [bind fst snd]. match goal with |- Ok (_, ?u, _) = _ => assert (EU : u = msg); [|rewrite EU; reflexivity] end. rewrite flat_map_concat_map, map_map. cbn [fst]. etransitivity; [|exact Ecat]. etransitivity; [|apply (f_equal (fun z => concat (map (firstn k) z))); exact CH]. rewrite map_map. f_equal. apply map_ext. intros bl. rewrite map_map. reflexivity.
      * apply Forall_forall. intros bl Hbl. rewrite Forall_forall in HF. apply (HF (map (fun x => Z.b2z (LdpcDecModel.n_signbit LdpcBPSpec.real_ops x)) bl)). rewrite <- CH. apply in_map_iff. exists bl. split; [reflexivity|exact Hbl].
    + intros i y h Hy Hh. assert (Hi : (i < N)%nat). { assert (F : (i < length (map yv (seq 0 N)))%nat) by (apply nth_error_Some; congruence). rewrite map_length, seq_length in F. exact F. }
      apply (nth_error_nth _ _ []) in Hy. rewrite nth_map_seq in Hy by exact Hi. apply (nth_error_nth _ _ []) in Hh. rewrite nth_map_seq in Hh by exact Hi. subst y h. cbn [w' lw_sent]. destruct (RS i Hi) as [R1 R2]. split; [exact R1|]. rewrite (right_signs_length _ _ R2), slice_length by nia. lia.
  - unfold cInv. cbn [w' lw_channel lw_code]. rewrite J1, J2, J3, J4, J5. auto 10.
Qed.
End CSends.

Lemma C77_any_detector_proof :
(* an LDPC-coded MIMO link with a soft detector whose values have the right signs for every drawn channel matrix and noise vector: no
     errors, in both simulation functions, whatever the decoding algorithm and the number of iterations *)
  forall (dr : mimo_draws) sqrtm (c : list C) (g : bool) (md : modem) detect (algo : LdpcDecModel.algorithm) (n_iters : nat) (p q : Z) empty (ch : mimo) (code start : LdpcModel.ldpc) (H : LdpcModel.arr2)
         (snr : R) (snrs : list R) (tx_max ncps fuel : nat) (send_max err_min : Z) (send_chunk : option Z) (stop : bool),
    modem_init c g = Ok md -> NoDup c -> (2 <= length c)%nat -> (1 <= t_nb ch)%nat -> m_complex ch = true -> m_nan (f_mean (m_fading ch)) = false -> 1 <= err_min -> (1 <= ncps)%nat ->
    (* the code: n columns, k = n minus the number of rows, k/n = p/q; the dictionary as it is after get_ldpc_code_params without or with the matrices *)
    let n := LdpcModel.a_cols H in let k := (n - length (LdpcModel.a_rows H))%nat in
    LdpcSpec.describes code H -> (2 <= length (LdpcModel.a_rows H) < n)%nat -> LdpcSpec.int_invertible H \/ LdpcSpec.unit_lower H \/ LdpcSpec.unit_upper H ->
    LdpcModel.p_gen code = None \/ LdpcModel.p_matrix code = None -> start = code \/ start = fst (LdpcModel.build_matrix code) ->
    In (p, q) [(1, 2); (2, 3); (3, 4); (5, 6)] -> Z.of_nat k * q = Z.of_nat n * p ->
    let s := sqrt (2 * INR (t_nb ch) * energy md / (IZR p / IZR q * Rpower 10 (snr / 10))) in
    let chunk := round_chunk (Z.of_nat (num_bits md) * Z.of_nat (t_nb ch)) p q (match send_chunk with Some n => n | None => err_min end) in
    (Z.of_nat k | chunk) -> chunk * Z.of_nat ncps < 2 ^ 49 ->
    (forall t a bs x, bits bs -> length bs = (t_nb ch * num_bits md)%nat -> modulate md bs = Ok x -> let M := drawn_matrix dr sqrtm ch t a in
       exists l, detect (S t) (map (fun i => (apply_row (nth i M []) x + drawn_noise dr s t a i)%C) (seq 0 (r_nb ch))) M = Ok l /\ right_signs bs l) ->
    coded_full_metrics dr sqrtm md detect algo n_iters k p q empty ch start (snr :: snrs) tx_max err_min send_chunk ncps stop =
      Ok ({| BER := Some (0, Z.of_nat tx_max * chunk); BE := repeat 0 tx_max; CE := repeat 0 tx_max; NC := repeat (Z.of_nat ncps) tx_max |} ::
          repeat {| BER := None; BE := repeat 0 tx_max; CE := repeat 0 tx_max; NC := repeat 0 tx_max |} (length snrs)) /\
    (1 <= send_max -> (Z.to_nat (bits_sent send_max chunk / chunk) < fuel)%nat ->
     coded_performance dr sqrtm md detect algo n_iters k p q empty ch start fuel (snr :: snrs) send_max err_min send_chunk = Ok (Some (0, bits_sent send_max chunk) :: repeat None (length snrs))).
Proof.
  intros dr sqrtm c g md detect algo n_iters p q empty ch code start H snr snrs tx_max ncps fuel send_max err_min sc stop EI ND Hc Ht Hcx Hnan He Hn n k HD Hdim Hinv Hgen Hst HR Hkn s chunk Hkc Hbig Hdet.
  destruct (init_ready _ _ _ EI ND Hc) as (HW & NDp & Hb1 & HP). pose proof (energy_nonneg _ _ _ EI) as HE.
  assert (Hpq : 0 < p /\ 0 < q <= 2 * p) by (destruct HR as [E|[E|[E|[E|[]]]]]; injection E as <- <-; lia). destruct Hpq as (Hp & Hq & Hq2).
  assert (HPw : (0 < IZR p / IZR q * Rpower 10 (snr / 10))%R). { apply Rmult_lt_0_compat; [|apply exp_pos]. apply Rdiv_lt_0_compat; apply IZR_lt; assumption. }
  destruct (LdpcTop.C37_codewords_proof code H HD Hdim Hinv Hgen) as (code' & EM & Hall).
  assert (Ev : LdpcModel.n_vnodes code' = n). { destruct (Hall [] (Forall_nil _)) as (blocks & _ & E1 & _). pose proof (triang_vnodes [] code true) as T. rewrite E1 in T. cbn [fst] in T. rewrite T. apply HD. }
  assert (EB : fst (LdpcModel.build_matrix code) = code'). { destruct (Hall [] (Forall_nil _)) as (blocks & _ & E1 & _). unfold LdpcModel.triang_encode in E1. destruct (LdpcModel.build_matrix code) as [pb rb]. destruct (LdpcModel.p_gen code), (LdpcModel.p_matrix code); try (destruct Hgen; discriminate); injection E1; intros; assumption. }
  rewrite EB in Hst.
  assert (Henc : forall msg, bits msg -> (length msg mod k = 0)%nat -> exists blocks, LdpcSpec.coded H msg blocks /\ forall cd, cd = code \/ cd = code' -> LdpcModel.triang_encode msg cd false = (code', Ok blocks)).
  { intros msg Hb Hm. destruct (Hall msg Hb) as (blocks & Hcod & _ & _ & E3 & E4). fold n k in E3, E4. exists blocks. split; [exact Hcod|]. fold n k in E3. rewrite Hm in E3, E4. cbn [Nat.eqb] in E3, E4. intros cd [->| ->]; assumption. }
  set (lk := coded_link dr sqrtm md detect algo n_iters k p q empty (t_nb ch)). set (w0 := {| lw_channel := ch; lw_sent := 0; lw_code := start |}). set (w1 := {| lw_channel := mimo_with_std ch (Some (Some s)); lw_sent := 0; lw_code := start |}).
  assert (ES : l_set_snr lk w0 snr = Ok w1).
  { cbn [lk coded_link l_set_snr w0 lw_channel lw_sent lw_code mimo_do]. unfold snr_dB. destruct (Req_EM_T _ 0) as [F|_]; [lra|]. rewrite Hcx. unfold np_sqrt.
    replace ((1 + 1) * INR (t_nb ch) * energy md)%R with (2 * INR (t_nb ch) * energy md)%R by ring.
    destruct (Rlt_dec _ 0) as [F|_]; [|reflexivity]. exfalso. apply (Rlt_not_le _ _ F). apply Rmult_le_pos; [|left; apply Rinv_0_lt_compat; exact HPw]. apply Rmult_le_pos; [|exact HE]. apply Rmult_le_pos; [lra|apply pos_INR]. }
  assert (HI : cInv ch s code code' w1) by (unfold cInv; cbn [w1 lw_channel lw_code mimo_with_std t_nb r_nb m_fading m_complex m_std]; auto 10).
  set (b := Z.of_nat (num_bits md) * Z.of_nat (t_nb ch)) in *. assert (Hbt : 0 < b) by (unfold b; nia).
  destruct (round_chunk_facts b p q Hbt ltac:(lia) (match sc with Some n => n | None => err_min end)) as (Hch & (j & Hj) & _). fold chunk in Hch, Hj. cbv zeta in Hj.
  assert (CQ : exists N0, 0 < N0 /\ chunk * q = N0 * b * p).
  { unfold divider in Hj. pose proof (Z.gcd_nonneg q (b * p)) as G0. destruct (Z.gcd_divide_l q (b * p)) as (u & Hu). destruct (Z.gcd_divide_r q (b * p)) as (v & Hv). set (gg := Z.gcd q (b * p)) in *. assert (Hg : 0 < gg) by nia.
    replace (b * p / gg) with v in Hj by (rewrite Hv; rewrite Z.div_mul; lia). assert (0 < j) by nia. assert (0 < u) by nia. exists (j * u). split; [nia|]. rewrite Hj. rewrite Hu at 1. replace (j * u * b * p) with (j * u * (b * p)) by ring. rewrite Hv. ring. }
  destruct CQ as (N0 & HN0 & CQ).
  assert (SE : forall r w, (1 <= r)%nat -> Z.of_nat r <= Z.of_nat ncps -> cInv ch s code code' w -> exists msg w', transmit lk w (Z.to_nat chunk * r) = Ok (msg, msg, w') /\ length msg = (Z.to_nat chunk * r)%nat /\ bits msg /\ cInv ch s code code' w').
  { intros r w Hr Hrn Iw. apply (coded_sends dr sqrtm c g md detect empty ch s algo n_iters p q code code' H EI ND Hc Ht Hnan Hdet HR Hkn ltac:(unfold k, n; lia) ltac:(apply HD) EM Ev Henc _ (Z.to_nat N0 * r) w).
    - nia.
    - fold n k. destruct Hkc as (d & Hd). apply Nat.mod_divide; [unfold k, n; lia|]. exists (Z.to_nat d * r)%nat. assert (0 <= d) by nia. apply Nat2Z.inj. rewrite !Nat2Z.inj_mul, !Z2Nat.id by lia. rewrite Hd. ring.
    - rewrite !Nat2Z.inj_mul, !Z2Nat.id by lia. transitivity (chunk * q * Z.of_nat r); [ring|]. rewrite CQ. unfold b. ring.
    - rewrite !Nat2Z.inj_mul, !Z2Nat.id by lia. replace (N0 * Z.of_nat r * (Z.of_nat (t_nb ch) * Z.of_nat (num_bits md))) with (N0 * b * Z.of_nat r) by (unfold b; ring).
      assert (A1 : N0 * b * p <= 2 * chunk * p) by (rewrite <- CQ; nia). assert (A2 : N0 * b <= 2 * chunk) by nia. assert (A3 : N0 * b * Z.of_nat r <= 2 * chunk * Z.of_nat ncps) by (apply Z.mul_le_mono_nonneg; nia).
      change (2 ^ 50) with (2 * 2 ^ 49). lia.
    - exact Iw. }
  unfold coded_full_metrics, coded_performance. fold lk w0. split.
  - unfold link_performance_full_metrics. cbn [lk coded_link num_bits_symbol nb_tx]. fold lk b chunk. rewrite <- (Z2Nat.id chunk) at 2 by lia.
    apply (full_zero lk (cInv ch s code code') (Z.to_nat chunk) ncps) with (w1 := w1); [|exact He|exact ES|exact HI].
    intros w Iw. apply SE; [exact Hn|lia|exact Iw].
  - intros Hs Hf. unfold link_performance. cbn [lk coded_link num_bits_symbol nb_tx]. fold lk b chunk.
    apply (perf_zero lk (cInv ch s code code') chunk Hch) with (w1 := w1); [|exact He|exact Hs|exact Hf|exact ES|exact HI]. intros w Iw. rewrite <- (Nat.mul_1_r (Z.to_nat chunk)). apply SE; [lia|lia|exact Iw].
Qed.

Lemma C77_best_first_proof :
(* the best-first receiver: as many receive as transmit antennas, stacks of any positive sizes, every noise vector shorter than half of
     |M v| for every v whose last non-zero entry is a difference of two points *)
  forall (dr : mimo_draws) sqrtm (c : list C) (g : bool) (md : modem) argsort qr (sizes : list nat) (llr_max : R) (rounds : nat) (algo : LdpcDecModel.algorithm) (n_iters : nat) (p q : Z) empty (ch : mimo)
         (code start : LdpcModel.ldpc) (H : LdpcModel.arr2) (snr : R) (snrs : list R) (tx_max ncps fuel : nat) (send_max err_min : Z) (send_chunk : option Z) (stop : bool),
    modem_init c g = Ok md -> NoDup c -> (2 <= length c)%nat -> (2 <= t_nb ch)%nat -> r_nb ch = t_nb ch -> m_complex ch = true -> m_nan (f_mean (m_fading ch)) = false -> 1 <= err_min -> (1 <= ncps)%nat ->
    let n := LdpcModel.a_cols H in let k := (n - length (LdpcModel.a_rows H))%nat in
    LdpcSpec.describes code H -> (2 <= length (LdpcModel.a_rows H) < n)%nat -> LdpcSpec.int_invertible H \/ LdpcSpec.unit_lower H \/ LdpcSpec.unit_upper H ->
    LdpcModel.p_gen code = None \/ LdpcModel.p_matrix code = None -> start = code \/ start = fst (LdpcModel.build_matrix code) ->
    In (p, q) [(1, 2); (2, 3); (3, 4); (5, 6)] -> Z.of_nat k * q = Z.of_nat n * p ->
    sorting argsort -> (forall t a, let M := drawn_matrix dr sqrtm ch t a in is_qr M (t_nb ch) (fst (qr M)) (snd (qr M))) ->
    (t_nb ch - 1 <= length sizes)%nat -> Forall (fun z => (1 <= z)%nat) sizes -> (0 < llr_max)%R -> (length c ^ t_nb ch <= rounds)%nat ->
    let s := sqrt (2 * INR (t_nb ch) * energy md / (IZR p / IZR q * Rpower 10 (snr / 10))) in
    let chunk := round_chunk (Z.of_nat (num_bits md) * Z.of_nat (t_nb ch)) p q (match send_chunk with Some n => n | None => err_min end) in
    (Z.of_nat k | chunk) -> chunk * Z.of_nat ncps < 2 ^ 49 ->
    (forall t a, clear_successive (noise_energy dr ch s t a) (drawn_matrix dr sqrtm ch t a) c (t_nb ch)) ->
    let receiver := best_first_detect argsort qr md (t_nb ch) sizes llr_max rounds in
    coded_full_metrics dr sqrtm md receiver algo n_iters k p q empty ch start (snr :: snrs) tx_max err_min send_chunk ncps stop =
      Ok ({| BER := Some (0, Z.of_nat tx_max * chunk); BE := repeat 0 tx_max; CE := repeat 0 tx_max; NC := repeat (Z.of_nat ncps) tx_max |} ::
          repeat {| BER := None; BE := repeat 0 tx_max; CE := repeat 0 tx_max; NC := repeat 0 tx_max |} (length snrs)) /\
    (1 <= send_max -> (Z.to_nat (bits_sent send_max chunk / chunk) < fuel)%nat ->
     coded_performance dr sqrtm md receiver algo n_iters k p q empty ch start fuel (snr :: snrs) send_max err_min send_chunk = Ok (Some (0, bits_sent send_max chunk) :: repeat None (length snrs))).
Proof.
  intros dr sqrtm c g md argsort qr sizes L rounds algo n_iters p q empty ch code start H snr snrs tx_max ncps fuel send_max err_min sc stop EI ND Hc Ht Hrx Hcx Hnan He Hn n k HD Hdim Hinv Hgen Hst HR Hkn HS Hqr Hsz Hs1 HL Hrd s chunk Hkc Hbig Hclear receiver.
  apply (C77_any_detector_proof dr sqrtm c g md receiver algo n_iters p q empty ch code start H); try assumption; [lia|]. fold s. intros t a bs x Hb Lb Ex M. destruct (drawn_columns dr sqrtm ch t a) as [HC HLm]. fold M in HC, HLm.
  pose proof (init_perm _ _ _ EI) as HP. destruct (init_ready _ _ _ EI ND Hc) as (HW & NDp & Hb1 & _).
  destruct (modulate_vector md bs 1 (t_nb ch) 0 HW Hb1 Hb ltac:(lia) ltac:(lia) ltac:(lia)) as (x' & Ex' & Lx & _ & Fx). rewrite Ex in Ex'. injection Ex' as <-. rewrite Nat.mul_1_l in Lx.
  assert (VP : vector_of (points md) (t_nb ch) x) by (split; assumption).
  set (y := map _ (seq 0 (r_nb ch))). assert (Ly : length y = length M) by (unfold y; rewrite map_length, seq_length, HLm; reflexivity). assert (Ey : sq_dist y M x = noise_energy dr ch s t a) by apply noisy_dist.
  assert (Hcp : (2 <= length (points md))%nat) by (rewrite (Permutation_length HP); exact Hc).
  destruct (modem_demaps c g md 0%R EI ND Hc) as (_ & lab & HDm & _).
  assert (HDp : demaps (fun x => match demodulate md x Hard 0%R with Ok (inl b) => Ok b | Ok (inr _) => Err TypeError | Err e => Err e end) (points md) (Nat.log2 (length (points md))) lab).
  { destruct HDm as [D1 D2]. rewrite (Permutation_length HP). split; [intros z Hz; apply D1; eapply Permutation_in; eassumption|]. intros z Hz. apply D2. eapply Forall_impl; [|exact Hz]. intros p0. apply Permutation_in. exact HP. }
  assert (EL : flat_map lab x = bs).
  { destruct HDp as [_ D2]. specialize (D2 x Fx). destruct (C42_round_trip_proof c g md bs 0%R EI ND Hc) as (x2 & E1 & E2 & _); [exact Hb|intros F; rewrite F in Lb; cbn in Lb; nia|]. rewrite Ex in E1. injection E1 as <-. rewrite Lb, Nat.mod_mul in E2 by lia. specialize (E2 eq_refl). rewrite E2 in D2. injection D2 as D2. symmetry. exact D2. }
  match type of HDp with demaps ?d _ _ _ => destruct (C73_best_first_proof argsort y M (fst (qr M)) (snd (qr M)) (t_nb ch) (points md) x sizes d lab L HS (Hqr t a) ltac:(rewrite HLm; exact Hrx) Ly VP) as (del & _ & Hpos & Run); try assumption; [|lra|] end.
  { intros v j p0 p' Lv Hj Hp0 Hp' Hd Hv Hz. rewrite Ey. apply (Hclear t a v j p0 p'); try assumption; eapply Permutation_in; eassumption. }
  unfold receiver, best_first_detect. rewrite Run by (rewrite (Permutation_length HP); exact Hrd). eexists. split; [reflexivity|]. rewrite EL. specialize (Hpos NDp HL).
  clear - Hb Hpos. unfold right_signs. unfold bits in Hb. induction Hb as [|b0 bs H1 H2 IH]; cbn [map]; constructor; [|exact IH]. destruct H1 as [->| ->]; cbn; [left|right]; (split; [reflexivity|lra]).
Qed.

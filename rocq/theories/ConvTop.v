(* Final forms of the convolutional encoder theorems (statements repeated in P_Conv.v). *)
From Verif Require Import Base UtilModel UtilProofs TrellisModel TrellisSpec TrellisProofs FloatRate ConvProofs ConvCode ConvTerm ConvMore LegacyProofs LegacyModel LegacyGen LegacyOnes.

Lemma C21_trellis_tables_proof :
forall (garbage : regs) (C : code) (rsc : bool), well_formed C ->
    exists tr : Trellis, trellis_of garbage C rsc = Ok tr /\
      tr_k tr = kk C /\ tr_n tr = outs C /\ tr_M tr = MM C /\ tr_rsc tr = rsc /\
      length (tr_next tr) = (2 ^ MM C)%nat /\ length (tr_out tr) = (2 ^ MM C)%nat /\
      forall s u : Z, 0 <= s < 2 ^ Z.of_nat (MM C) -> 0 <= u < 2 ^ Z.of_nat (kk C) ->
        encoder_step C s u (entry (tr_out tr) s u) (entry (tr_next tr) s u).
Proof.
  intros garbage C rsc WF. exists (the_trellis C rsc). split; [apply trellis_of_spec; exact WF|]. do 4 (split; [reflexivity|]).
  split; [apply table_length|]. split; [apply table_length|].
  intros s u Hs Hu. rewrite entry_out, entry_next by assumption. apply step_f.
Qed.

Lemma C21_step_unique_proof :
forall (C : code) (s u o1 s1 o2 s2 : Z), well_formed C -> encoder_step C s u o1 s1 -> encoder_step C s u o2 s2 -> o1 = o2 /\ s1 = s2.
Proof.
  intros C s u o1 s1 o2 s2 WF H1 H2. destruct (step_unique C s u o1 s1 H1) as [-> ->]. destruct (step_unique C s u o2 s2 H2) as [-> ->]. split; reflexivity.
Qed.

Lemma C21_memory_independent_proof :
forall (garbage garbage' : regs) (C : code) (rsc : bool), well_formed C -> trellis_of garbage C rsc = trellis_of garbage' C rsc.
Proof.
  intros garbage garbage' C rsc WF. rewrite !trellis_of_spec by exact WF. reflexivity.
Qed.

Lemma C21_memory_dependent_refuted_proof :
exists (C : code) (garbage garbage' : regs), memory C <> [] /\ length (gens C) = kk C /\ fmt C = MSB /\ fback C = None /\
    (forall i j : nat, 0 <= mat_get (gens C) i j < 2 ^ Z.of_nat (WW C)) /\ trellis_of garbage C false <> trellis_of garbage' C false.
Proof.
  exists {| memory := [2%nat; 1%nat]; outs := 1; gens := [[1]; [4]]; fback := None; fmt := MSB |}, (fun _ _ => 0), (fun _ _ => 1).
  split; [discriminate|]. do 3 (split; [reflexivity|]). split; [|intros H; vm_compute in H; discriminate H].
  intros i j. cbn [gens mat_get]. unfold WW, max_mem. cbn [memory]. change (2 ^ Z.of_nat (fold_right Nat.max 0%nat [2%nat; 1%nat] + 1)) with 8.
  unfold mat_get. destruct i as [|[|[|i]]]; destruct j as [|[|j]]; cbn; lia.
Qed.

Lemma C22_incoming_proof :
forall (garbage : regs) (C : code) (rsc : bool) (tr : Trellis) (s' : Z), well_formed C -> trellis_of garbage C rsc = Ok tr ->
    fback C = None \/ input_injective C -> 0 <= s' < 2 ^ Z.of_nat (MM C) ->
    length (filter (fun p => entry (tr_next tr) (fst p) (snd p) =? s') (list_prod (zseq (MM C)) (zseq (kk C)))) = (2 ^ kk C)%nat.
Proof.
  intros garbage C rsc tr s' WF E HI Hs'. rewrite trellis_of_spec in E by exact WF. injection E as <-.
  rewrite <- (incoming_count C s') by (assumption || (destruct HI as [HI|HI]; [apply ff_injective; exact HI|exact HI])).
  f_equal. apply filter_ext_in. intros [s u] Hin. apply in_prod_iff in Hin. rewrite !zseq_In in Hin. cbn [fst snd]. rewrite entry_next by tauto. reflexivity.
Qed.

Lemma C22_singular_feedback_refuted_proof :
exists (C : code) (tr : Trellis) (s' : Z), well_formed C /\ trellis_of (fun _ _ => 0) C true = Ok tr /\ 0 <= s' < 2 ^ Z.of_nat (MM C) /\
    filter (fun p => entry (tr_next tr) (fst p) (snd p) =? s') (list_prod (zseq (MM C)) (zseq (kk C))) = [].
Proof.
  exists {| memory := [1%nat; 1%nat]; outs := 1; gens := [[1]; [1]]; fback := Some [[1; 1]; [1; 1]]; fmt := MSB |}. eexists. exists 1.
  split; [apply wf_check_ok; reflexivity|]. split; [vm_compute; reflexivity|]. split; [vm_compute; split; congruence|vm_compute; reflexivity].
Qed.

Lemma C23_convolution_proof :
forall (garbage : regs) (C : code) (rsc : bool) (tr : Trellis) (msg : list Z) (T : nat),
    well_formed C -> fback C = None -> trellis_of garbage C rsc = Ok tr -> (1 <= outs C)%nat -> rate_ok (kk C) (outs C) = true ->
    bits msg -> length msg = (T * kk C)%nat -> Z.of_nat (length msg) * Z.of_nat (outs C) < 2 ^ 49 ->
    exists out : list Z, conv_encode msg tr Cont None = Ok out /\ length out = (T * outs C)%nat /\
      forall t j : nat, (t < T)%nat -> (j < outs C)%nat ->
        nth (t * outs C + j) out 0 =
          Z.b2z (line_sum C (fun i d => gcoef C i j d && ((d <=? t)%nat && (nth ((t - d) * kk C + i) msg 0 =? 1)))).
Proof.
  intros garbage C rsc tr msg T WF Hf E Hn Hr Hb Hl Hs. rewrite trellis_of_spec in E by exact WF. injection E as <-.
  pose proof (valid_the_trellis C WF rsc Hn) as V. set (tr := the_trellis C rsc) in *.
  pose proof (k_pos C WF) as Hk.
  assert (HT : (length msg / kk C)%nat = T) by (rewrite Hl; apply Nat.div_mul; lia).
  eexists. unfold conv_encode. rewrite (cont_exact tr msg T V Hb Hl Hr Hs). cbn [bind fst]. split; [reflexivity|].
  split; [rewrite emit_bits_length; change (tr_k tr) with (kk C); rewrite HT; reflexivity|].
  intros t j Ht Hj. change (tr_n tr) with (outs C).
  assert (Hsl : length (symbols tr msg) = T) by (rewrite symbols_length; exact HT).
  rewrite (bitstream_nth _ _ t j 0); [|rewrite emit_length; lia|exact Hj]. f_equal.
  assert (Hur : Forall (fun u => 0 <= u < 2 ^ Z.of_nat (kk C)) (symbols tr msg)) by (apply (symbols_range tr); exact Hb).
  unfold tr at 1 2. rewrite emit_the by (apply zero_range || exact Hur). rewrite emit_nth by lia.
  rewrite out_f_bit by exact Hj.
  apply line_sum_ext. intros i d Hi Hd. rewrite andb_comm. f_equal.
  assert (Hfl : length (firstn t (symbols tr msg)) = t) by (rewrite firstn_length; lia).
  assert (Hbit : forall q, (q < T)%nat -> Z.testbit (nth q (symbols tr msg) 0) (Z.of_nat (kk C) - 1 - Z.of_nat i) = (nth (q * kk C + i) msg 0 =? 1)).
  { intros q Hq. apply (symbols_bit tr msg i q Hb); change (tr_k tr) with (kk C); rewrite ?HT; lia. }
  destruct (Nat.eq_dec d 0) as [->|Hd0].
  - unfold cell. cbn [Nat.eqb]. fold (kk C). replace (0 <=? t)%nat with true by lia. cbn [andb]. rewrite Nat.sub_0_r. apply Hbit. exact Ht.
  - rewrite (cell_u C _ _ 0) by lia. rewrite ff_state by (try assumption; lia). rewrite Hfl.
    destruct (Nat.leb_spec d t) as [Hdt|Hdt].
    + rewrite firstn_nth by lia. rewrite Hbit by lia. reflexivity.
    + cbn [andb]. apply cell_0.
Qed.

Lemma punctured_xor row a b : length a = length b -> punctured row (xorl a b) = xorl (punctured row a) (punctured row b).
Proof.
  intros H. unfold punctured. rewrite (xorl_length a b H). rewrite <- H. rewrite !map_length.
  rewrite xorl_app by (rewrite !map_length; reflexivity). rewrite xorl_zeros. f_equal. unfold xorl.
  generalize (filter (keep row) (seq 0 (length a))). intros l. induction l as [|i l IH]; [reflexivity|]. cbn [map combine fst snd]. f_equal; [|exact IH].
  fold (xorl a b). apply xorl_nth. exact H.
Qed.
Lemma encode_plain_exists C rsc msg term : well_formed C -> (1 <= outs C)%nat -> rate_ok (kk C) (outs C) = true -> bits msg -> term = Cont \/ rsc = false ->
  Z.of_nat (length msg + 2 * MM C) * Z.of_nat (outs C) < 2 ^ 49 ->
  let tr := the_trellis C rsc in
  let padded := match term with Cont => msg | _ => msg ++ repeat 0 (MM C + MM C mod kk C) end in
  exists N : nat, N = Z.to_nat (int_div_rate (Z.of_nat (length padded)) (kk C) (outs C)) /\ (length padded / kk C * outs C <= N)%nat /\
   conv_encode_st msg tr term None = Ok (bitstream (outs C) (emit (next_f C) (out_f C) 0 (symbols tr padded)) ++ repeat 0 (N - length padded / kk C * outs C), walk (next_f C) 0 (symbols tr padded)).
Proof.
  intros WF Hn Hr Hb Ht Hs tr padded. pose proof (k_pos C WF) as Hk. pose proof (valid_the_trellis C WF rsc Hn) as V. fold tr in V.
  pose proof (Nat.mod_le (MM C) (kk C) ltac:(lia)) as Hmod.
  assert (Hbp : bits padded) by (unfold padded; destruct term; [exact Hb| |]; apply bits_app; split; try exact Hb; apply bits_repeat0).
  assert (Hlp : (length padded <= length msg + 2 * MM C)%nat) by (unfold padded; destruct term; rewrite ?app_length, ?repeat_length; lia).
  exists (Z.to_nat (int_div_rate (Z.of_nat (length padded)) (kk C) (outs C))). split; [reflexivity|].
  assert (Hroom : (length padded / kk C * outs C <= Z.to_nat (int_div_rate (Z.of_nat (length padded)) (kk C) (outs C)))%nat).
  { apply room; try assumption. apply Z.le_lt_trans with (2 := Hs). apply Z.mul_le_mono_nonneg_r; lia. }
  split; [exact Hroom|].
  assert (Hur : Forall (fun u => 0 <= u < 2 ^ Z.of_nat (kk C)) (symbols tr padded)) by (apply (symbols_range tr); exact Hbp).
  rewrite (conv_encode_plain tr V msg padded (Z.to_nat (int_div_rate (Z.of_nat (length padded)) (kk C) (outs C)))).
  - change (tr_k tr) with (kk C). change (tr_n tr) with (outs C). unfold tr at 1 2 4. rewrite emit_the, walk_the by (exact Hur || apply zero_range). reflexivity.
  - exact Hbp.
  - destruct term; [reflexivity| |]; right; (split; [destruct Ht; [discriminate|assumption]|reflexivity]).
  - destruct Ht as [-> | Hrsc]; [reflexivity|]. destruct term; [reflexivity| |]; change (tr_rsc tr) with rsc; rewrite Hrsc; reflexivity.
  - exact Hroom.
Qed.

Lemma C24_linear_proof :
forall (garbage : regs) (C : code) (rsc : bool) (tr : Trellis) (term : termination) (puncture : option (list Z)) (a b : list Z),
    well_formed C -> trellis_of garbage C rsc = Ok tr -> (1 <= outs C)%nat -> rate_ok (kk C) (outs C) = true ->
    term = Cont \/ rsc = false -> puncture <> Some [] -> bits a -> bits b -> length a = length b ->
    Z.of_nat (length a + 2 * MM C) * Z.of_nat (outs C) < 2 ^ 49 ->
    exists ea eb : list Z, conv_encode a tr term puncture = Ok ea /\ conv_encode b tr term puncture = Ok eb /\ length ea = length eb /\
      conv_encode (xorl a b) tr term puncture = Ok (xorl ea eb).
Proof.
  intros garbage C rsc tr term puncture a b WF E Hn Hr Ht Hp Ha Hb Hl Hs. rewrite trellis_of_spec in E by exact WF. injection E as <-.
  pose proof (valid_the_trellis C WF rsc Hn) as V.
  destruct (encode_plain_exists C rsc a term WF Hn Hr Ha Ht Hs) as (Na & ENa & _ & Ea).
  destruct (encode_plain_exists C rsc b term WF Hn Hr Hb Ht ltac:(rewrite <- Hl; exact Hs)) as (Nb & ENb & _ & Eb).
  destruct (encode_plain_exists C rsc (xorl a b) term WF Hn Hr ltac:(apply xorl_bits; assumption) Ht ltac:(rewrite xorl_length by exact Hl; exact Hs)) as (Nx & ENx & _ & Ex).
  set (tr := the_trellis C rsc) in *. cbn zeta in *.
  set (pa := match term with Cont => a | _ => a ++ repeat 0 (MM C + MM C mod kk C) end) in *.
  set (pb := match term with Cont => b | _ => b ++ repeat 0 (MM C + MM C mod kk C) end) in *.
  set (px := match term with Cont => xorl a b | _ => xorl a b ++ repeat 0 (MM C + MM C mod kk C) end) in *.
  assert (Hpl : length pa = length pb) by (unfold pa, pb; destruct term; rewrite ?app_length; lia).
  assert (Hpx : px = xorl pa pb) by (unfold px, pa, pb; destruct term; rewrite ?xorl_app by exact Hl; rewrite ?xorl_zeros; reflexivity).
  assert (Hba : bits pa) by (unfold pa; destruct term; [exact Ha| |]; apply bits_app; split; try exact Ha; apply bits_repeat0).
  assert (Hbb : bits pb) by (unfold pb; destruct term; [exact Hb| |]; apply bits_app; split; try exact Hb; apply bits_repeat0).
  assert (Hlx : length px = length pa) by (rewrite Hpx; apply xorl_length; exact Hpl).
  rewrite Hlx in Ex, ENx. rewrite <- Hpl in Eb, ENb. rewrite <- ENa in ENx, ENb. rewrite ENx in Ex. rewrite ENb in Eb.
  set (oa := bitstream _ _ ++ _) in Ea. set (ob := bitstream _ _ ++ _) in Eb. set (ox := bitstream _ _ ++ _) in Ex.
  assert (Hol : length oa = length ob) by (unfold oa, ob; rewrite !app_length, !bitstream_length, !emit_length, !symbols_length, Hpl; reflexivity).
  assert (Hox : ox = xorl oa ob).
  { unfold ox, oa, ob. rewrite Hpx, symbols_xor by assumption. rewrite <- (Z.lxor_0_l 0) at 1.
    rewrite emit_xor by (rewrite !symbols_length, Hpl; reflexivity).
    rewrite bitstream_xor by (rewrite !emit_length, !symbols_length, Hpl; reflexivity).
    rewrite xorl_app by (rewrite !bitstream_length, !emit_length, !symbols_length, Hpl; reflexivity). rewrite xorl_zeros. reflexivity. }
  unfold conv_encode. destruct puncture as [row|].
  - assert (Hne : row <> []) by (intros ->; apply Hp; reflexivity). rewrite (conv_encode_punct tr a term row _ _ Hne V Ea), (conv_encode_punct tr b term row _ _ Hne V Eb), (conv_encode_punct tr _ term row _ _ Hne V Ex). cbn [bind fst].
    exists (punctured row oa), (punctured row ob). split; [reflexivity|]. split; [reflexivity|]. split.
    + unfold punctured. rewrite !app_length, !repeat_length, !map_length, Hol. reflexivity.
    + rewrite Hox, punctured_xor by exact Hol. reflexivity.
  - rewrite Ea, Eb, Ex. cbn [bind fst]. exists oa, ob. split; [reflexivity|]. split; [reflexivity|]. split; [exact Hol|]. rewrite Hox. reflexivity.
Qed.

Lemma symbols_padded tr msg z : (1 <= tr_k tr)%nat -> let L := length msg in let k := tr_k tr in
  let T := ((L + z) / k)%nat in let c := ((L + k - 1) / k)%nat in (c <= T)%nat ->
  symbols tr (msg ++ repeat 0 z) = firstn c (symbols tr (msg ++ repeat 0 z)) ++ repeat 0 (T - c).
Proof.
  intros Hk. cbn zeta. set (k := tr_k tr) in *. set (L := length msg). set (T := ((L + z) / k)%nat). set (c := ((L + k - 1) / k)%nat). intros Hc.
  set (us := symbols tr (msg ++ repeat 0 z)).
  assert (Hlu : length us = T) by (unfold us; rewrite symbols_length, app_length, repeat_length; reflexivity).
  apply nth_ext_Z; [rewrite app_length, firstn_length, repeat_length, Hlu; lia|]. intros i Hi. rewrite Hlu in Hi.
  destruct (Nat.lt_ge_cases i c) as [H|H].
  - rewrite app_nth1 by (rewrite firstn_length; lia). rewrite firstn_nth by exact H. reflexivity.
  - rewrite app_nth2 by (rewrite firstn_length; lia). rewrite nth_repeat_same. unfold us, symbols. rewrite nth_map_seq by (rewrite app_length, repeat_length; exact Hi). fold k.
    assert (Hik : (L <= i * k)%nat). { unfold c in H. pose proof (Nat.mul_succ_div_gt (L + k - 1) k ltac:(lia)). nia. }
    assert (Hz : forall l : list Z, Forall (fun x => x = 0) l -> bitarray2dec l = 0).
    { intros l Hl. induction Hl as [|x l -> Hl IH]; [reflexivity|]. rewrite bitarray2dec_cons, IH. lia. }
    apply Hz. apply Forall_forall. intros x Hx. unfold slice in Hx. rewrite skipn_app, (skipn_all2 msg) in Hx by exact Hik. cbn [app] in Hx.
    rewrite skipn_repeat in Hx. assert (In x (repeat 0 (z - (i * k - length msg)))) as Hx'.
    { rewrite <- (firstn_skipn ((i + 1) * k - i * k) (repeat 0 (z - (i * k - length msg)))). apply in_or_app. left. exact Hx. }
    apply repeat_spec in Hx'. exact Hx'.
Qed.
Lemma term_zero C rsc msg : well_formed C -> fback C = None ->
  (max_mem (memory C) + (length msg + kk C - 1) / kk C <= (length msg + MM C + MM C mod kk C) / kk C)%nat ->
  walk (next_f C) 0 (symbols (the_trellis C rsc) (msg ++ repeat 0 (MM C + MM C mod kk C))) = 0.
Proof.
  intros WF Hf Hc. pose proof (k_pos C WF) as Hk. rewrite <- Nat.add_assoc in Hc.
  rewrite (symbols_padded (the_trellis C rsc) msg (MM C + MM C mod kk C)) by (change (tr_k (the_trellis C rsc)) with (kk C); lia).
  change (tr_k (the_trellis C rsc)) with (kk C). apply ff_zero; [exact Hf|lia].
Qed.

Lemma C25_terminates_proof :
forall (garbage : regs) (C : code) (tr : Trellis) (puncture : option (list Z)) (msg : list Z),
    well_formed C -> fback C = None -> trellis_of garbage C false = Ok tr -> (1 <= outs C)%nat -> rate_ok (kk C) (outs C) = true ->
    puncture <> Some [] -> bits msg -> Z.of_nat (length msg + 2 * MM C) * Z.of_nat (outs C) < 2 ^ 49 ->
    (max_mem (memory C) + (length msg + kk C - 1) / kk C <= (length msg + MM C + MM C mod kk C) / kk C)%nat ->
    exists out : list Z, conv_encode_st msg tr Term puncture = Ok (out, 0).
Proof.
  intros garbage C tr puncture msg WF Hf E Hn Hr Hp Hb Hs Hc. rewrite trellis_of_spec in E by exact WF. injection E as <-.
  destruct (encode_plain_exists C false msg Term WF Hn Hr Hb (or_intror eq_refl) Hs) as (N & _ & _ & E). cbn zeta in E.
  rewrite (term_zero C false msg WF Hf Hc) in E. destruct puncture as [row|]; [|eexists; exact E].
  assert (Hne : row <> []) by (intros ->; apply Hp; reflexivity).
  eexists. apply (conv_encode_punct _ msg Term row _ _ Hne (valid_the_trellis C WF false Hn) E).
Qed.

Lemma C25_condition_proof :
forall (C : code) (L : nat), well_formed C ->
    kk C = 1%nat \/ (exists m q : nat, Forall (fun x => x = m) (memory C) /\ L = (q * kk C)%nat) ->
    (max_mem (memory C) + (L + kk C - 1) / kk C <= (L + MM C + MM C mod kk C) / kk C)%nat.
Proof.
  intros C L WF. pose proof (k_pos C WF) as Hk. intros [H1|(m & q & Hm & ->)].
  - unfold MM, kk in *. destruct (memory C) as [|m [|m' l]]; cbn [length] in *; try lia. cbn [max_mem sum_mem fold_right].
    rewrite !Nat.div_1_r, Nat.mod_1_r. lia.
  - assert (HM : MM C = (m * kk C)%nat /\ (max_mem (memory C) <= m)%nat).
    { unfold MM, kk. clear - Hm. induction Hm as [|x l -> Hl IH]; [cbn; lia|]. unfold sum_mem, max_mem in *. cbn [fold_right length]. nia. }
    destruct HM as [-> Hmx]. rewrite Nat.mod_mul by lia. rewrite Nat.add_0_r. rewrite <- Nat.mul_add_distr_r, Nat.div_mul by lia.
    replace (q * kk C + kk C - 1)%nat with ((kk C - 1) + q * kk C)%nat by lia. rewrite Nat.div_add by lia. rewrite Nat.div_small by lia. lia.
Qed.

Lemma C25_restart_proof :
forall (garbage : regs) (C : code) (tr : Trellis) (msg msg2 : list Z) (T T2 : nat),
    well_formed C -> fback C = None -> trellis_of garbage C false = Ok tr -> (1 <= outs C)%nat -> rate_ok (kk C) (outs C) = true ->
    bits msg -> bits msg2 -> length msg2 = (T2 * kk C)%nat ->
    (length msg + MM C + MM C mod kk C)%nat = (T * kk C)%nat ->
    (max_mem (memory C) + (length msg + kk C - 1) / kk C <= (length msg + MM C + MM C mod kk C) / kk C)%nat ->
    Z.of_nat (length msg + 2 * MM C + length msg2) * Z.of_nat (outs C) < 2 ^ 49 ->
    exists o1 o2 : list Z, conv_encode msg tr Term None = Ok o1 /\ conv_encode msg2 tr Cont None = Ok o2 /\
      conv_encode (msg ++ repeat 0 (MM C + MM C mod kk C) ++ msg2) tr Cont None = Ok (o1 ++ o2).
Proof.
  intros garbage C tr msg msg2 T T2 WF Hf E Hn Hr Hb Hb2 Hl2 Hl Hc Hs. rewrite trellis_of_spec in E by exact WF. injection E as <-.
  pose proof (k_pos C WF) as Hk. pose proof (valid_the_trellis C WF false Hn) as V. set (tr := the_trellis C false) in *.
  set (pad := msg ++ repeat 0 (MM C + MM C mod kk C)).
  assert (Hbp : bits pad) by (apply bits_app; split; [exact Hb|apply bits_repeat0]).
  assert (Hpl : length pad = (T * kk C)%nat) by (unfold pad; rewrite app_length, repeat_length; lia).
  pose proof (Nat.mod_le (MM C) (kk C) ltac:(lia)) as Hmod.
  assert (Hsz : Z.of_nat (length pad + length msg2) * Z.of_nat (outs C) < 2 ^ 49).
  { apply Z.le_lt_trans with (2 := Hs). apply Z.mul_le_mono_nonneg_r; [lia|]. unfold pad. rewrite app_length, repeat_length. lia. }
  assert (Hsz1 : Z.of_nat (length pad) * Z.of_nat (outs C) < 2 ^ 49) by (apply Z.le_lt_trans with (2 := Hsz); apply Z.mul_le_mono_nonneg_r; lia).
  assert (Hsz2 : Z.of_nat (length msg2) * Z.of_nat (outs C) < 2 ^ 49) by (apply Z.le_lt_trans with (2 := Hsz); apply Z.mul_le_mono_nonneg_r; lia).
  assert (Hsz3 : Z.of_nat (length msg + 2 * MM C) * Z.of_nat (outs C) < 2 ^ 49) by (apply Z.le_lt_trans with (2 := Hs); apply Z.mul_le_mono_nonneg_r; lia).
  destruct (encode_plain_exists C false msg Term WF Hn Hr Hb (or_intror eq_refl) Hsz3) as (N & EN & _ & E1). cbn zeta in E1. fold pad tr in E1, EN.
  assert (HT : (length pad / kk C)%nat = T) by (rewrite Hpl; apply Nat.div_mul; lia).
  rewrite Hpl in EN. rewrite room_exact in EN by (try assumption; rewrite <- Hpl; exact Hsz1).
  rewrite HT, EN, Nat.sub_diag in E1. cbn [repeat] in E1. rewrite app_nil_r in E1.
  pose proof (term_zero C false msg WF Hf Hc) as Hz. fold pad tr in Hz.
  pose proof (cont_exact tr msg2 T2 V Hb2 Hl2 Hr Hsz2) as E2.
  assert (Hl3 : length (pad ++ msg2) = ((T + T2) * kk C)%nat) by (rewrite app_length, Hpl, Hl2; lia).
  assert (Hb3 : bits (pad ++ msg2)) by (apply bits_app; split; assumption).
  pose proof (cont_exact tr (pad ++ msg2) (T + T2) V Hb3 Hl3 Hr ltac:(rewrite app_length; exact Hsz)) as E3.
  rewrite app_assoc. fold pad. unfold conv_encode. rewrite E1, E2, E3. cbn [bind fst].
  assert (Hu1 : Forall (fun u => 0 <= u < 2 ^ Z.of_nat (kk C)) (symbols tr pad)) by (apply (symbols_range tr); exact Hbp).
  assert (Hu2 : Forall (fun u => 0 <= u < 2 ^ Z.of_nat (kk C)) (symbols tr msg2)) by (apply (symbols_range tr); exact Hb2).
  eexists. eexists. split; [reflexivity|]. split; [reflexivity|]. f_equal. change (tr_n tr) with (outs C).
  rewrite (symbols_app tr pad msg2 T) by (change (tr_k tr) with (kk C); lia).
  unfold tr at 1 2 5 6. rewrite !emit_the by (try apply zero_range; try exact Hu2; apply Forall_app; split; assumption).
  rewrite emit_app, Hz, bitstream_app. reflexivity.
Qed.

Lemma C25_unequal_memories_refuted_proof :
exists (C : code) (tr : Trellis) (msg out : list Z) (s : Z), well_formed C /\ fback C = None /\ memory C = [3%nat; 1%nat] /\
    trellis_of (fun _ _ => 0) C false = Ok tr /\ bits msg /\ conv_encode_st msg tr Term None = Ok (out, s) /\ s <> 0.
Proof.
  exists {| memory := [3%nat; 1%nat]; outs := 3; gens := [[15; 0; 9]; [0; 3; 1]]; fback := None; fmt := MSB |}. eexists. exists [1; 1]. eexists. eexists.
  split; [apply wf_check_ok; reflexivity|]. split; [reflexivity|]. split; [reflexivity|]. split; [vm_compute; reflexivity|].
  split; [repeat constructor; unfold is_bit; lia|]. split; [vm_compute; reflexivity|]. discriminate.
Qed.

Lemma rsc_term C msg : well_formed C -> (1 <= outs C)%nat -> rate_ok (kk C) (outs C) = true -> bits msg ->
  Z.of_nat (length msg + kk C * MM C) * Z.of_nat (outs C) < 2 ^ 49 ->
  let tr := the_trellis C true in let us := symbols tr msg in
  exists out : list Z, conv_encode_st msg tr Term None = Ok (out, walk (next_f C) (walk (next_f C) 0 us) (tail_inputs (kk C) (MM C) (walk (next_f C) 0 us))) /\
    exists z : nat, out = bitstream (outs C) (emit (next_f C) (out_f C) 0 (us ++ tail_inputs (kk C) (MM C) (walk (next_f C) 0 us))) ++ repeat 0 z /\
       (kk C = 1%nat -> z = 0%nat).
Proof.
  intros WF Hn Hr Hb Hs tr us. pose proof (k_pos C WF) as Hk. pose proof (valid_the_trellis C WF true Hn) as V. fold tr in V.
  pose proof (conv_encode_rsc_term tr msg _ V eq_refl Hb eq_refl) as H. cbn zeta in H.
  change (tr_k tr) with (kk C) in H. change (tr_n tr) with (outs C) in H. change (tr_M tr) with (MM C) in H.
  assert (Hu : Forall (fun u => 0 <= u < 2 ^ Z.of_nat (kk C)) us) by (apply (symbols_range tr); exact Hb).
  pose proof (tail_range (kk C) (MM C) (walk (next_f C) 0 us)) as Hu2.
  assert (Hd : ((length msg + kk C * MM C) / kk C)%nat = (length msg / kk C + MM C)%nat).
  { replace (kk C * MM C)%nat with (MM C * kk C)%nat by lia. apply Nat.div_add. lia. }
  pose proof (room (kk C) (outs C) (length msg + kk C * MM C) Hk Hn Hr Hs) as Hroom. rewrite Hd in Hroom. specialize (H Hroom).
  fold us in H. unfold tr in H at 2 3 4 5 6. rewrite (walk_the C true us) in H by (exact Hu || apply zero_range).
  rewrite (emit_the C true) in H by (apply zero_range || (apply Forall_app; split; assumption)).
  rewrite (walk_the C true) in H by (apply zero_range || (apply Forall_app; split; assumption)).
  eexists. split; [rewrite <- walk_app; exact H|]. eexists. split; [reflexivity|].
  intros H1. rewrite H1, !Nat.div_1_r, Nat.mul_1_l in *.
  replace (length msg + MM C)%nat with ((length msg + MM C) * 1)%nat at 1 by lia. rewrite room_exact; [lia|lia|exact Hn|exact Hr|]. replace ((length msg + MM C) * 1)%nat with (length msg + MM C)%nat by lia. exact Hs.
Qed.
Lemma sym1 tr msg : tr_k tr = 1%nat -> bits msg -> symbols tr msg = msg.
Proof.
  intros H1 Hb. unfold symbols. rewrite H1, Nat.div_1_r. apply nth_ext_Z; [apply map_seq_length|]. intros i Hi. rewrite map_seq_length in Hi.
  rewrite nth_map_seq by exact Hi. assert (Es : slice msg (i * 1) ((i + 1) * 1) = [nth i msg 0]).
  { apply nth_ext_Z; [rewrite slice_length by lia; cbn; lia|]. intros j Hj. rewrite slice_length in Hj by lia. assert (j = 0)%nat by lia. subst j. rewrite slice_nth by lia. cbn [nth]. f_equal. lia. }
  rewrite Es, bitarray2dec_cons. cbn [length]. rewrite Z.pow_0_r. change (bitarray2dec []) with 0. lia.
Qed.
Lemma bits_of_range us : Forall (fun u => 0 <= u < 2) us -> bits us.
Proof. intros H. apply (Forall_impl is_bit) with (2 := H). intros a Ha. unfold is_bit. lia. Qed.

Lemma C26_recursive_termination_proof :
forall (garbage : regs) (C : code) (m : nat) (tr : Trellis),
    well_formed C -> memory C = [m] -> (1 <= m)%nat -> fcoef C 0 0 0 = true ->
    trellis_of garbage C true = Ok tr -> (1 <= outs C)%nat -> rate_ok 1 (outs C) = true -> Z.of_nat (2 * m) * Z.of_nat (outs C) < 2 ^ 49 ->
    ((forall msg : list Z, bits msg -> Z.of_nat (length msg + m) * Z.of_nat (outs C) < 2 ^ 49 ->
        exists out : list Z, conv_encode_st msg tr Term None = Ok (out, 0))
     <-> (fcoef C 0 0 m = true /\ forall d : nat, (1 <= d < m)%nat -> fcoef C 0 0 d = false)).
Proof.
  intros garbage C m tr WF Hmem Hm H0 E Hn Hr Hs. rewrite trellis_of_spec in E by exact WF. injection E as <-.
  pose proof (kk1 C m Hmem) as Hk1. pose proof (MMm C m Hmem) as HMm.
  split.
  - intros H. apply (tail_only_bounded C m Hmem H0 Hm). intros us Hul Hus. cbn zeta.
    assert (Hb : bits us) by (apply bits_of_range; exact Hus).
    assert (Hsz : Z.of_nat (length us + m) * Z.of_nat (outs C) < 2 ^ 49) by (apply Z.le_lt_trans with (2 := Hs); apply Z.mul_le_mono_nonneg_r; lia).
    destruct (H us Hb Hsz) as (out & Eo).
    destruct (rsc_term C us WF Hn ltac:(rewrite Hk1; exact Hr) Hb ltac:(rewrite Hk1, HMm, Nat.mul_1_l; exact Hsz)) as (out' & Eo' & _).
    rewrite (sym1 (the_trellis C true) us Hk1 Hb) in Eo'. rewrite Hk1, HMm in Eo'. rewrite Eo in Eo'. injection Eo' as _ E0. symmetry. exact E0.
  - intros (Hfm & Hfd) msg Hb Hsz.
    destruct (rsc_term C msg WF Hn ltac:(rewrite Hk1; exact Hr) Hb ltac:(rewrite Hk1, HMm, Nat.mul_1_l; exact Hsz)) as (out & Eo & _).
    exists out. rewrite Eo. do 2 f_equal. rewrite Hk1, HMm. apply (tail_ok C m Hmem); try assumption.
    rewrite <- HMm. apply walk_nf_range. apply zero_range.
Qed.

Lemma C26_tail_proof :
forall (garbage : regs) (C : code) (m : nat) (tr : Trellis) (msg : list Z),
    well_formed C -> memory C = [m] -> trellis_of garbage C true = Ok tr -> (1 <= outs C)%nat -> rate_ok 1 (outs C) = true ->
    bits msg -> Z.of_nat (length msg + m) * Z.of_nat (outs C) < 2 ^ 49 ->
    exists (out : list Z) (s : Z) (o : list Z), 
      conv_encode_st msg tr Cont None = Ok (o, s) /\ 0 <= s < 2 ^ Z.of_nat m /\
      conv_encode msg tr Term None = Ok out /\
      conv_encode (msg ++ map (fun i => Z.b2z (Z.testbit s (Z.of_nat i))) (seq 0 m)) tr Cont None = Ok out.
Proof.
  intros garbage C m tr msg WF Hmem E Hn Hr Hb Hs. rewrite trellis_of_spec in E by exact WF. injection E as <-.
  pose proof (kk1 C m Hmem) as Hk1. pose proof (MMm C m Hmem) as HMm. pose proof (valid_the_trellis C WF true Hn) as V. set (tr := the_trellis C true) in *.
  assert (Hrr : rate_ok (kk C) (outs C) = true) by (rewrite Hk1; exact Hr).
  assert (Hs0 : Z.of_nat (length msg) * Z.of_nat (outs C) < 2 ^ 49) by (apply Z.le_lt_trans with (2 := Hs); apply Z.mul_le_mono_nonneg_r; lia).
  pose proof (cont_exact tr msg (length msg) V Hb ltac:(change (tr_k tr) with (kk C); lia) Hrr Hs0) as E1.
  destruct (rsc_term C msg WF Hn Hrr Hb ltac:(rewrite Hk1, HMm, Nat.mul_1_l; exact Hs)) as (out & Eo & z & Ez & Hz). fold tr in Eo, Ez.
  specialize (Hz Hk1). subst z. cbn [repeat] in Ez. rewrite app_nil_r in Ez.
  rewrite (sym1 tr msg Hk1 Hb) in *. set (s := walk (next_f C) 0 msg) in *.
  assert (Hu : Forall (fun u => 0 <= u < 2 ^ Z.of_nat (kk C)) msg) by (pose proof (symbols_range tr msg Hb) as H; rewrite (sym1 tr msg Hk1 Hb) in H; exact H).
  assert (Hsr : 0 <= s < 2 ^ Z.of_nat m) by (rewrite <- HMm; apply walk_nf_range; apply zero_range).
  exists out, s. eexists. split; [rewrite E1; do 2 f_equal; unfold tr; rewrite walk_the by (exact Hu || apply zero_range); reflexivity|]. split; [exact Hsr|].
  unfold conv_encode. rewrite Eo. cbn [bind fst]. split; [reflexivity|].
  set (tl := map (fun i => Z.b2z (Z.testbit s (Z.of_nat i))) (seq 0 m)).
  assert (Htl : tail_inputs (kk C) (MM C) s = tl).
  { rewrite Hk1, HMm. apply nth_ext_Z; [unfold tail_inputs, tl; rewrite !map_seq_length; reflexivity|]. intros i Hi. unfold tail_inputs in Hi. rewrite map_seq_length in Hi.
    rewrite (tail_bit C m Hmem) by exact Hi. unfold tl. rewrite nth_map_seq by exact Hi. f_equal. rewrite (cell1 C m Hmem). replace (m - i =? 0)%nat with false by lia. f_equal. lia. }
  assert (Hbt : bits tl) by (apply Forall_forall; intros x Hx; apply in_map_iff in Hx; destruct Hx as (i & <- & _); apply is_bit_b2z).
  assert (Hba : bits (msg ++ tl)) by (apply bits_app; split; assumption).
  assert (Hlt : length tl = m) by apply map_seq_length.
  rewrite (cont_exact tr (msg ++ tl) (length msg + m) V Hba); [|change (tr_k tr) with (kk C); rewrite app_length; lia|exact Hrr|rewrite app_length, Hlt; exact Hs].
  cbn [bind fst]. rewrite (sym1 tr (msg ++ tl) Hk1 Hba). rewrite Ez, Htl. change (tr_n tr) with (outs C).
  unfold tr. rewrite emit_the; [reflexivity|apply zero_range|]. apply Forall_app. split; [exact Hu|]. rewrite Hk1. change (2 ^ Z.of_nat 1) with 2.
  apply (Forall_impl (fun u => 0 <= u < 2)) with (2 := Hbt). intros a Ha. unfold is_bit in Ha. lia.
Qed.

Lemma C26_tail_several_lines_proof :
(* any number k of lines: the M tail symbols are the state bits, last cell first, k at a time (an incomplete group is
     padded with zeros on its left), then zeros *)
  forall (garbage : regs) (C : code) (tr : Trellis) (msg : list Z) (T : nat),
    well_formed C -> trellis_of garbage C true = Ok tr -> (1 <= outs C)%nat -> rate_ok (kk C) (outs C) = true ->
    bits msg -> length msg = (T * kk C)%nat -> Z.of_nat (length msg + kk C * MM C) * Z.of_nat (outs C) < 2 ^ 49 ->
    exists (o : list Z) (s : Z), conv_encode_st msg tr Cont None = Ok (o, s) /\ 0 <= s < 2 ^ Z.of_nat (MM C) /\
      (let group := fun i : nat => Nat.min (kk C) (MM C - i * kk C) in
      let tail := concat (map (fun i => repeat 0 (kk C - group i) ++ map (fun j => Z.b2z (Z.testbit s (Z.of_nat (i * kk C + j)))) (seq 0 (group i))) (seq 0 (MM C))) in
      exists r : list Z * Z, conv_encode_st msg tr Term None = Ok r /\ conv_encode_st (msg ++ tail) tr Cont None = Ok r).
Proof.
  intros garbage C tr msg T WF E Hn Hr Hb HT Hs. rewrite trellis_of_spec in E by exact WF. injection E as <-.
  pose proof (k_pos C WF) as Hk. pose proof (valid_the_trellis C WF true Hn) as V. set (tr := the_trellis C true) in *.
  assert (Hs0 : Z.of_nat (length msg) * Z.of_nat (outs C) < 2 ^ 49) by (apply Z.le_lt_trans with (2 := Hs); apply Z.mul_le_mono_nonneg_r; lia).
  pose proof (cont_exact tr msg T V Hb HT Hr Hs0) as E1. eexists. eexists. split; [exact E1|].
  set (us := symbols tr msg) in *. set (s := walk (entry (tr_next tr)) 0 us).
  assert (HM : 0 <= 0 < 2 ^ Z.of_nat (MM C)) by (split; [lia|apply Z.pow_pos_nonneg; lia]).
  assert (Hsr : 0 <= s < 2 ^ Z.of_nat (MM C)) by (apply (walk_range tr V); [exact HM|apply symbols_range; exact Hb]). split; [exact Hsr|]. cbn zeta.
  set (grp := fun i => Nat.min (kk C) (MM C - i * kk C)).
  set (word := fun i => repeat 0 (kk C - grp i) ++ map (fun j => Z.b2z (Z.testbit s (Z.of_nat (i * kk C + j)))) (seq 0 (grp i))).
  set (tail := concat (map word (seq 0 (MM C)))).
  assert (Lw : forall i, length (word i) = kk C) by (intros i; unfold word; rewrite app_length, repeat_length, map_seq_length; unfold grp; lia).
  assert (Hbw : forall i, bits (word i)).
  { intros i. apply bits_app. split; [apply Forall_forall; intros x Hx; apply repeat_spec in Hx; subst x; left; reflexivity|]. apply Forall_forall. intros x Hx. apply in_map_iff in Hx. destruct Hx as (j & <- & _). apply is_bit_b2z. }
  assert (Lt : forall m a, length (concat (map word (seq a m))) = (m * kk C)%nat) by (induction m; intros a; [reflexivity|]; cbn [seq map concat]; rewrite app_length, Lw, IHm; lia).
  assert (Hbt : bits tail) by (apply concat_bits, Forall_forall; intros x Hx; apply in_map_iff in Hx; destruct Hx as (i & <- & _); apply Hbw).
  assert (Hba : bits (msg ++ tail)) by (apply bits_app; split; assumption).
  assert (Hla : length (msg ++ tail) = ((T + MM C) * kk C)%nat) by (rewrite app_length; unfold tail; rewrite Lt; lia).
  pose proof (cont_exact tr (msg ++ tail) (T + MM C) V Hba Hla Hr) as E2. change (tr_n tr) with (outs C) in E2.
  specialize (E2 ltac:(rewrite Hla; replace ((T + MM C) * kk C)%nat with (length msg + kk C * MM C)%nat by lia; exact Hs)).
  pose proof (conv_encode_rsc_term tr msg _ V eq_refl Hb eq_refl) as E3. cbn zeta in E3. change (tr_k tr) with (kk C) in E3. change (tr_n tr) with (outs C) in E3. change (tr_M tr) with (MM C) in E3. fold us s in E3.
  replace (length msg + kk C * MM C)%nat with ((T + MM C) * kk C)%nat in E3 by lia.
  assert (Hroom : Z.to_nat (int_div_rate (Z.of_nat ((T + MM C) * kk C)) (kk C) (outs C)) = ((T + MM C) * outs C)%nat) by (apply room_exact; try assumption; replace ((T + MM C) * kk C)%nat with (length msg + kk C * MM C)%nat by lia; exact Hs).
  assert (Hdiv : (length msg / kk C)%nat = T) by (rewrite HT; apply Nat.div_mul; lia). rewrite Hroom, Hdiv in E3. specialize (E3 ltac:(lia)). rewrite Nat.sub_diag in E3. cbn [repeat] in E3. rewrite app_nil_r in E3.
  eexists. split; [exact E3|]. rewrite E2.
  assert (Es : symbols tr (msg ++ tail) = us ++ tail_inputs (kk C) (MM C) s); [|rewrite Es; reflexivity].
  unfold symbols. change (tr_k tr) with (kk C). rewrite Hla, Nat.div_mul by lia. rewrite seq_app, map_app. f_equal.
  - unfold us, symbols. change (tr_k tr) with (kk C). rewrite Hdiv. apply map_ext_in. intros i Hi. apply in_seq in Hi. f_equal. apply slice_app_l. nia.
  - unfold tail_inputs. cbn [Nat.add]. apply nth_ext_Z; [rewrite !map_seq_length; reflexivity|]. intros i Hi. rewrite map_seq_length in Hi.
    rewrite (nth_map_lt _ (seq T (MM C)) i 0%nat) by (rewrite seq_length; lia). rewrite seq_nth by lia. rewrite nth_map_seq by exact Hi. assert (Ew : slice (msg ++ tail) ((T + i) * kk C) ((T + i + 1) * kk C) = word i).
    { replace ((T + i) * kk C)%nat with (length msg + i * kk C)%nat by lia. replace ((T + i + 1) * kk C)%nat with (length msg + (i + 1) * kk C)%nat by lia. rewrite slice_app_r. unfold tail. apply (slice_concat_words word (kk C)); assumption. }
    rewrite Ew. unfold word. rewrite b2d_zeros. f_equal.
    apply nth_ext_Z; [rewrite map_seq_length, slice_len, rev_length, bits_msb_length; unfold grp; lia|]. intros j Hj. rewrite map_seq_length in Hj. unfold grp in Hj. rewrite nth_map_seq by (unfold grp; lia). rewrite slice_nth by lia.
    rewrite rev_nth by (rewrite bits_msb_length; lia). rewrite bits_msb_length, bits_msb_nth by lia. f_equal. f_equal. lia.
Qed.

Lemma C26_several_lines_refuted_proof :
(* two lines, each with the feedback 1 + D: the tail does not return to state 0 *)
  exists (C : code) (tr : Trellis) (msg out : list Z) (s : Z), well_formed C /\ memory C = [1%nat; 1%nat] /\ fback C = Some [[3; 0]; [0; 3]] /\ fmt C = MSB /\
    trellis_of (fun _ _ => 0) C true = Ok tr /\ bits msg /\ conv_encode_st msg tr Term None = Ok (out, s) /\ s <> 0.
Proof.
  exists {| memory := [1%nat; 1%nat]; outs := 3; gens := [[1; 0; 3]; [0; 1; 3]]; fback := Some [[3; 0]; [0; 3]]; fmt := MSB |}. eexists. exists [1; 0]. eexists. exists 3.
  split; [apply wf_check_ok; reflexivity|]. do 3 (split; [reflexivity|]). split; [vm_compute; reflexivity|]. split; [repeat constructor; (left; reflexivity) || (right; reflexivity)|]. split; [vm_compute; reflexivity|discriminate].
Qed.

Lemma C27_length_proof :
forall (garbage : regs) (C : code) (rsc : bool) (tr : Trellis) (msg : list Z) (T : nat),
    well_formed C -> trellis_of garbage C rsc = Ok tr -> (1 <= outs C)%nat -> rate_ok (kk C) (outs C) = true ->
    bits msg -> length msg = (T * kk C)%nat -> Z.of_nat (length msg + 2 * MM C) * Z.of_nat (outs C) < 2 ^ 49 ->
    (exists out : list Z, conv_encode msg tr Cont None = Ok out /\ length out = (T * outs C)%nat) /\
    (rsc = false -> ((MM C + MM C mod kk C) mod kk C = 0)%nat ->
       exists out : list Z, conv_encode msg tr Term None = Ok out /\ length out = ((T + (MM C + MM C mod kk C) / kk C) * outs C)%nat).
Proof.
  intros garbage C rsc tr msg T WF E Hn Hr Hb Hl Hs. rewrite trellis_of_spec in E by exact WF. injection E as <-.
  pose proof (k_pos C WF) as Hk. pose proof (Nat.mod_le (MM C) (kk C) ltac:(lia)) as Hmod.
  assert (Hex : forall N T' : nat, N = Z.to_nat (int_div_rate (Z.of_nat (T' * kk C)) (kk C) (outs C)) -> (T' * kk C <= length msg + 2 * MM C)%nat -> N = (T' * outs C)%nat).
  { intros N T' -> Hle. apply room_exact; try assumption. apply Z.le_lt_trans with (2 := Hs). apply Z.mul_le_mono_nonneg_r; lia. }
  split.
  - destruct (encode_plain_exists C rsc msg Cont WF Hn Hr Hb (or_introl eq_refl) Hs) as (N & EN & Hle & Eo). cbn zeta in *.
    unfold conv_encode. rewrite Eo. eexists. split; [reflexivity|]. cbn [fst]. rewrite app_length, repeat_length, bitstream_length, emit_length, symbols_length.
    change (tr_k (the_trellis C rsc)) with (kk C). rewrite Hl in EN, Hle |- *. apply Hex in EN; [|lia]. rewrite Nat.div_mul in * by lia. lia.
  - intros Hrsc Hd. destruct (encode_plain_exists C rsc msg Term WF Hn Hr Hb (or_intror Hrsc) Hs) as (N & EN & Hle & Eo). cbn zeta in *.
    unfold conv_encode. rewrite Eo. eexists. split; [reflexivity|]. cbn [fst]. rewrite app_length, repeat_length, bitstream_length, emit_length, symbols_length.
    change (tr_k (the_trellis C rsc)) with (kk C). set (z := (MM C + MM C mod kk C)%nat) in *.
    assert (Hz : z = (z / kk C * kk C)%nat) by (rewrite Nat.mul_comm; apply Nat.div_exact; lia).
    assert (Hpl : length (msg ++ repeat 0 z) = ((T + z / kk C) * kk C)%nat) by (rewrite app_length, repeat_length, Hl, Nat.mul_add_distr_r; lia).
    rewrite Hpl in *. apply Hex in EN; [|rewrite Nat.mul_add_distr_r, <- Hz, <- Hl; unfold z; lia]. rewrite Nat.div_mul in * by lia. lia.
Qed.

Lemma C27_any_length_proof :
(* messages of any length: what is left after the last whole group of k bits is not encoded - the output of the whole groups is
     padded with zeros to the integer part of length * n / k; termination appends the zeros to the message first *)
  forall (garbage : regs) (C : code) (rsc : bool) (tr : Trellis) (msg : list Z),
    well_formed C -> trellis_of garbage C rsc = Ok tr -> (1 <= outs C)%nat -> rate_ok (kk C) (outs C) = true ->
    bits msg -> Z.of_nat (length msg + 4 * MM C + kk C) * Z.of_nat (outs C) + Z.of_nat (kk C) < 2 ^ 49 ->
    let T := (length msg / kk C)%nat in
    (exists out : list Z, conv_encode (firstn (T * kk C) msg) tr Cont None = Ok out /\ length out = (T * outs C)%nat /\
       conv_encode msg tr Cont None = Ok (out ++ repeat 0 (length msg * outs C / kk C - T * outs C))) /\
    (rsc = false -> conv_encode msg tr Term None = conv_encode (msg ++ repeat 0 (MM C + MM C mod kk C)) tr Cont None).
Proof.
  intros garbage C rsc tr msg WF E Hn Hr Hb Hs T. rewrite trellis_of_spec in E by exact WF. injection E as <-.
  pose proof (k_pos C WF) as Hk. pose proof (Nat.mod_le (MM C) (kk C) ltac:(lia)) as Hmod. pose proof (Nat.div_mod (length msg) (kk C) ltac:(lia)) as DM. pose proof (Nat.mod_upper_bound (length msg) (kk C) ltac:(lia)) as DB. fold T in DM.
  assert (HTl : length (firstn (T * kk C) msg) = (T * kk C)%nat) by (rewrite firstn_length; lia).
  assert (Hbf : bits (firstn (T * kk C) msg)). { unfold bits in *. rewrite Forall_forall in *. intros x Hx. apply Hb. rewrite <- (firstn_skipn (T * kk C) msg). apply in_or_app. left. exact Hx. }
  assert (SM : forall q, (q <= length msg + 4 * MM C + kk C)%nat -> Z.of_nat q * Z.of_nat (outs C) + Z.of_nat (kk C) < 2 ^ 49) by (intros q Hq; nia).
  split.
  - destruct (encode_plain_exists C rsc (firstn (T * kk C) msg) Cont WF Hn Hr Hbf (or_introl eq_refl)) as (N1 & EN1 & _ & E1); [rewrite HTl; specialize (SM (T * kk C + 2 * MM C)%nat ltac:(lia)); lia|].
    destruct (encode_plain_exists C rsc msg Cont WF Hn Hr Hb (or_introl eq_refl)) as (N2 & EN2 & _ & E2); [specialize (SM (length msg + 2 * MM C)%nat ltac:(lia)); lia|].
    cbn zeta in E1, E2, EN1, EN2. cbn beta iota in E1, E2, EN1, EN2. rewrite HTl in E1, EN1. rewrite room_exact in EN1 by (try assumption; specialize (SM (T * kk C)%nat ltac:(lia)); lia).
    rewrite Nat.div_mul in E1 by lia. subst N1. rewrite Nat.sub_diag in E1. cbn [repeat] in E1. rewrite app_nil_r in E1.
    rewrite int_div_rate_floor in EN2 by (try assumption; try lia; specialize (SM (length msg) ltac:(lia)); lia). rewrite <- Nat2Z.inj_mul, <- Nat2Z.inj_div, Nat2Z.id in EN2. fold T in E2.
    eexists. unfold conv_encode at 1. rewrite E1. cbn [bind fst]. split; [reflexivity|]. split.
    + rewrite bitstream_length, emit_length, symbols_length. change (tr_k (the_trellis C rsc)) with (kk C). rewrite HTl, Nat.div_mul by lia. reflexivity.
    + unfold conv_encode. rewrite E2. cbn [bind fst]. subst N2. f_equal. f_equal. f_equal. f_equal. rewrite <- (firstn_skipn (T * kk C) msg) at 1. rewrite (symbols_app _ _ _ T) by (exact Hk || exact HTl). replace (symbols (the_trellis C rsc) (skipn (T * kk C) msg)) with (@nil Z); [apply app_nil_r|]. symmetry. apply length_zero_iff_nil. rewrite symbols_length, skipn_length. change (tr_k (the_trellis C rsc)) with (kk C). apply Nat.div_small. lia.
  - intros ->. destruct (encode_plain_exists C false msg Term WF Hn Hr Hb (or_intror eq_refl)) as (N1 & EN1 & _ & E1); [specialize (SM (length msg + 2 * MM C)%nat ltac:(lia)); lia|].
    assert (Hbp : bits (msg ++ repeat 0 (MM C + MM C mod kk C))) by (apply bits_app; split; [exact Hb|apply bits_repeat0]).
    destruct (encode_plain_exists C false _ Cont WF Hn Hr Hbp (or_introl eq_refl)) as (N2 & EN2 & _ & E2); [rewrite app_length, repeat_length; specialize (SM (length msg + (MM C + MM C mod kk C) + 2 * MM C)%nat ltac:(lia)); lia|].
    cbn beta zeta iota in E1, E2, EN1, EN2. unfold conv_encode. rewrite E1, E2, EN1, EN2. reflexivity.
Qed.

Lemma C27_puncturing_proof :
forall (garbage : regs) (C : code) (rsc : bool) (tr : Trellis) (msg : list Z) (term : termination) (row out : list Z),
    well_formed C -> trellis_of garbage C rsc = Ok tr -> (1 <= outs C)%nat -> conv_encode msg tr term None = Ok out ->
    (row <> [] -> conv_encode msg tr term (Some row) = Ok (punctured row out) /\ length (punctured row out) = length out) /\
    (* a puncture matrix without columns *)
    (out <> [] -> conv_encode msg tr term (Some []) = Err ZeroDivisionError).
Proof.
  intros garbage C rsc tr msg term row out WF E Hn Eo. rewrite trellis_of_spec in E by exact WF. injection E as <-.
  pose proof (valid_the_trellis C WF rsc Hn) as V. unfold conv_encode in *. destruct (conv_encode_st msg (the_trellis C rsc) term None) as [[o s]|] eqn:E; [|discriminate].
  cbn [bind fst] in Eo. injection Eo as <-. split; [|intros Ho; rewrite (conv_encode_no_columns _ msg term o s V E Ho); reflexivity].
  intros Hne. rewrite (conv_encode_punct _ msg term row o s Hne V E). split; [reflexivity|].
  unfold punctured. rewrite app_length, repeat_length, !map_length. pose proof (filter_len_le (keep row) (seq 0 (length o))) as H. rewrite seq_length in H. lia.
Qed.

Lemma C27_rounding_refuted_proof :
exists (C : code) (tr : Trellis) (msg : list Z), well_formed C /\ trellis_of (fun _ _ => 0) C false = Ok tr /\ bits msg /\
    kk C = 3%nat /\ outs C = 17%nat /\ length msg = 21%nat /\ conv_encode msg tr Cont None = Err ValueError.
Proof.
  exists {| memory := [1%nat; 0%nat; 0%nat]; outs := 17; gens := [repeat 3 17; repeat 1 17; repeat 1 17]; fback := None; fmt := MSB |}. eexists. exists (repeat 1 21).
  split; [apply wf_check_ok; reflexivity|]. split; [vm_compute; reflexivity|]. split; [apply Forall_forall; intros x Hx; apply repeat_spec in Hx; subst x; right; reflexivity|]. split; [reflexivity|]. split; [reflexivity|]. split; [reflexivity|]. vm_compute. reflexivity.
Qed.

Lemma C28_legacy_tables_proof :
forall (mem n : nat) (g_row : list Z) (feedback : Z) (rsc : bool), (1 <= mem)%nat -> (1 <= n <= length g_row)%nat ->
    (forall r : nat, (r < n)%nat -> 0 <= nth r g_row 0 < 2 ^ Z.of_nat (mem + 1)) -> 0 <= feedback < 2 ^ Z.of_nat (mem + 1) ->
    let row := if rsc then upd g_row 0 feedback else g_row in
    exists tr : Trellis, make_trellis_int [mem] n [g_row] feedback rsc = Ok (tr, [row]) /\ tr_k tr = 1%nat /\ tr_n tr = n /\ tr_M tr = mem /\
      forall s u : Z, 0 <= s < 2 ^ Z.of_nat mem -> 0 <= u < 2 ->
        (forall r : nat, (r < n)%nat ->
           Z.testbit (entry (tr_out tr) s u) (Z.of_nat n - 1 - Z.of_nat r) =
             xorb (xorb (Z.testbit u 0 && lcoef mem (nth r row 0) 0) (lsum mem feedback s)) (lsum mem (nth r row 0) s)) /\
        (0 <= entry (tr_next tr) s u < 2 ^ Z.of_nat mem) /\
        (forall d : nat, (1 <= d <= mem)%nat -> lcoef mem (entry (tr_next tr) s u) d =
           if (d =? 1)%nat then xorb (Z.testbit u 0) (lsum mem feedback s) else lcoef mem s (d - 1)).
Proof.
  intros mem n g_row feedback rsc Hm Hn Hg Hf row. destruct (legacy_spec mem n g_row feedback rsc Hm Hn Hg Hf) as (tr & E & H1 & H2 & H3 & _ & _ & H).
  exists tr. split; [exact E|]. do 3 (split; [assumption|]). intros s u Hs Hu. destruct (H s u Hs Hu) as (_ & Hr & Ho & Hx). split; [exact Ho|]. split; [exact Hr|exact Hx].
Qed.

Lemma C28_systematic_proof :
forall (mem n : nat) (g_row : list Z) (feedback : Z) (msg : list Z), (1 <= mem)%nat -> (1 <= n <= length g_row)%nat ->
    (forall r : nat, (r < n)%nat -> 0 <= nth r g_row 0 < 2 ^ Z.of_nat (mem + 1)) -> 2 ^ Z.of_nat mem <= feedback < 2 ^ Z.of_nat (mem + 1) ->
    rate_ok 1 n = true -> bits msg -> Z.of_nat (length msg) * Z.of_nat n < 2 ^ 49 ->
    exists (tr : Trellis) (out : list Z), make_trellis_int [mem] n [g_row] feedback true = Ok (tr, [upd g_row 0 feedback]) /\
      conv_encode msg tr Cont None = Ok out /\ length out = (length msg * n)%nat /\
      forall t : nat, (t < length msg)%nat -> nth (t * n) out 0 = nth t msg 0.
Proof.
  intros mem n g_row feedback msg Hm Hn Hg Hf Hr Hb Hs. pose proof (Z.pow_pos_nonneg 2 (Z.of_nat mem) ltac:(lia) ltac:(lia)) as Hp.
  destruct (legacy_spec mem n g_row feedback true Hm Hn Hg ltac:(lia)) as (tr & E & H1 & H2 & H3 & _ & V & H).
  assert (Hlm : length msg = (length msg * tr_k tr)%nat) by lia.
  exists tr. eexists. split; [exact E|]. unfold conv_encode.
  rewrite (cont_exact tr msg (length msg) V Hb Hlm) by (rewrite ?H1, ?H2; assumption). cbn [bind fst]. split; [reflexivity|].
  split; [rewrite emit_bits_length, H1, H2, Nat.div_1_r; reflexivity|]. intros t Ht. rewrite H2.
  replace (t * n)%nat with (t * n + 0)%nat by lia. rewrite (sym1 tr msg H1 Hb).
  rewrite (bitstream_nth _ _ t 0 0) by (rewrite ?emit_length; lia). rewrite emit_nth by exact Ht.
  assert (Hmt : is_bit (nth t msg 0)) by (apply bits_nth; exact Hb).
  assert (Hw : 0 <= walk (entry (tr_next tr)) 0 (firstn t msg) < 2 ^ Z.of_nat (tr_M tr)).
  { apply walk_range; [exact V|rewrite H3; lia|]. rewrite H1. apply Forall_forall. intros x Hx. change (2 ^ Z.of_nat 1) with 2.
    assert (In x msg) as Hx' by (rewrite <- (firstn_skipn t msg); apply in_or_app; left; exact Hx). unfold bits in Hb. rewrite Forall_forall in Hb. specialize (Hb x Hx'). unfold is_bit in Hb. lia. }
  rewrite H3 in Hw. destruct (H _ (nth t msg 0) Hw ltac:(unfold is_bit in Hmt; lia)) as (_ & _ & Ho & _). rewrite (Ho 0%nat) by lia.
  rewrite legacy_systematic by (apply nth_upd_eq; lia).
  assert (Hc : lcoef mem feedback 0 = true).
  { unfold lcoef. rewrite Z.sub_0_r. apply Z.testbit_true; [lia|]. assert (Eq : feedback / 2 ^ Z.of_nat mem = 1); [|rewrite Eq; reflexivity].
    replace (Z.of_nat (mem + 1)) with (Z.of_nat mem + 1) in Hf by lia. rewrite Z.pow_add_r, Z.pow_1_r in Hf by lia.
    apply eq_sym. apply Z.div_unique with (feedback - 2 ^ Z.of_nat mem); lia. }
  rewrite Hc, andb_true_r. destruct Hmt as [-> | ->]; reflexivity.
Qed.

Lemma C28_parity_proof :
forall (mem n : nat) (g_row : list Z) (feedback : Z), (1 <= mem)%nat -> (1 <= n <= length g_row)%nat ->
    (forall r : nat, (r < n)%nat -> 2 ^ Z.of_nat mem <= nth r g_row 0 < 2 ^ Z.of_nat (mem + 1)) -> 2 ^ Z.of_nat mem <= feedback < 2 ^ Z.of_nat (mem + 1) ->
    exists tr : Trellis, make_trellis_int [mem] n [g_row] feedback true = Ok (tr, [upd g_row 0 feedback]) /\
      forall (s u : Z) (r : nat), 0 <= s < 2 ^ Z.of_nat mem -> 0 <= u < 2 -> (1 <= r < n)%nat ->
        (* the new cell of the register is the input plus the feedback sum; the output uses it *)
        let w := lcoef mem (entry (tr_next tr) s u) 1 in
        w = xorb (Z.testbit u 0) (lsum mem feedback s) /\
        Z.testbit (entry (tr_out tr) s u) (Z.of_nat n - 1 - Z.of_nat r) =
          xorb (w && lcoef mem (nth r g_row 0) 0) (lsum mem (nth r g_row 0) s).
Proof.
  intros mem n g_row feedback Hm Hn Hg Hf. pose proof (Z.pow_pos_nonneg 2 (Z.of_nat mem) ltac:(lia) ltac:(lia)) as Hp.
  destruct (legacy_spec mem n g_row feedback true Hm Hn ltac:(intros r Hr; specialize (Hg r Hr); lia) ltac:(lia)) as (tr & E & H1 & H2 & H3 & _ & V & H).
  exists tr. split; [exact E|]. intros s u r Hs Hu Hr. cbn zeta. destruct (H s u Hs Hu) as (_ & _ & Ho & Hx).
  rewrite (Hx 1%nat) by lia. cbn [Nat.eqb]. split; [reflexivity|]. rewrite Ho by lia. unfold legacy_out.
  rewrite nth_upd_neq by lia.
  assert (Hc : lcoef mem (nth r g_row 0) 0 = true).
  { specialize (Hg r ltac:(lia)). set (p := nth r g_row 0) in *. unfold lcoef. rewrite Z.sub_0_r. apply Z.testbit_true; [lia|]. assert (Eq : p / 2 ^ Z.of_nat mem = 1); [|rewrite Eq; reflexivity].
    replace (Z.of_nat (mem + 1)) with (Z.of_nat mem + 1) in Hg by lia. rewrite Z.pow_add_r, Z.pow_1_r in Hg by lia.
    apply eq_sym. apply Z.div_unique with (p - 2 ^ Z.of_nat mem); lia. }
  rewrite Hc, !andb_true_r. reflexivity.
Qed.

Lemma C28_parity_refuted_proof :
exists (mem n : nat) (g_row : list Z) (feedback : Z) (tr : Trellis) (s u : Z), make_trellis_int [mem] n [g_row] feedback true = Ok (tr, [upd g_row 0 feedback]) /\
    (forall r : nat, (r < n)%nat -> 0 <= nth r g_row 0 < 2 ^ Z.of_nat (mem + 1)) /\
    0 <= s < 2 ^ Z.of_nat mem /\ 0 <= u < 2 /\
    Z.testbit (entry (tr_out tr) s u) (Z.of_nat n - 1 - 1) <>
      xorb (lcoef mem (entry (tr_next tr) s u) 1 && lcoef mem (nth 1 g_row 0) 0) (lsum mem (nth 1 g_row 0) s).
Proof.
  exists 2%nat, 2%nat, [1; 3], 5. eexists. exists 1, 0. split; [vm_compute; reflexivity|]. split; [|split; [cbn; lia|split; [lia|discriminate]]].
  intros [|[|r]] Hr; cbn; lia.
Qed.

Lemma C75_long_register_rejected_proof :
forall (memory : list nat) (n : nat) (g : list (list Z)) (feedback : Z) (rsc : bool) (l : nat),
    length memory = length g -> Forall (fun row => length row = n) g -> (1 <= n)%nat -> (rsc = true -> (length g <= n)%nat) ->
    (* register l is the first one, after register 0, with more than one cell *)
    (1 <= l < length g)%nat -> (1 <= nth 0 memory 0)%nat -> (forall i : nat, (1 <= i < l)%nat -> nth i memory 0%nat = 1%nat) -> (2 <= nth l memory 0)%nat ->
    (forall i : nat, (i <= l)%nat -> 0 <= nth 0 (nth i g []) 0 < 4 ^ Z.of_nat (nth i memory 0%nat + 1) /\ 0 <= feedback < 4 ^ Z.of_nat (nth i memory 0%nat + 1)) ->
    make_trellis_int memory n g feedback rsc = Err ValueError.
Proof.
  intros memory n g feedback rsc l Hlen HF Hn Hk Hl H0 H1 H2 Hfit. apply (several_inputs memory n g feedback rsc l); try assumption.
  intros i Hi. rewrite Z.pow_mul_r by lia. change (2 ^ 2) with 4. exact (Hfit i Hi).
Qed.

Lemma C75_empty_first_register_proof :
(* a first register without cells: the constructor raises *)
  forall (memory : list nat) (n : nat) (g : list (list Z)) (feedback : Z) (rsc : bool), length memory = length g -> Forall (fun row => length row = n) g -> (1 <= n)%nat -> (1 <= length g)%nat -> (rsc = true -> (length g <= n)%nat) ->
    nth 0 memory 0%nat = 0%nat -> 0 <= nth 0 (nth 0 g []) 0 < 4 -> 0 <= feedback < 4 ->
    ((3 <= list_sum memory)%nat -> make_trellis_int memory n g feedback rsc = Err ValueError) /\ (list_sum memory = 0%nat -> make_trellis_int memory n g feedback rsc = Err IndexError).
Proof.
  intros memory n g feedback rsc Hlen HF Hn Hl Hk H0 Hg Hf. split; intros Ht; eapply empty_first; try eassumption; [left|right]; (split; [exact Ht|reflexivity]).
Qed.

Lemma C75_one_cell_no_feedback_proof :
forall (garbage : regs) (n : nat) (g : list (list Z)), (1 <= length g)%nat -> (1 <= n)%nat ->
    (forall i : nat, (i < length g)%nat -> length (nth i g []) = n) -> (forall i j : nat, (i < length g)%nat -> (j < n)%nat -> 0 <= nth j (nth i g []) 0 < 4) ->
    let ones := repeat 1%nat (length g) in
    exists tr : Trellis, make_trellis_int ones n g 0 false = Ok (tr, g) /\
      (* the trellis of the feed-forward encoder, by the constructor of C21 *)
      trellis_of garbage {| memory := ones; outs := n; gens := g; fback := None; fmt := LSB |} false = Ok tr.
Proof.
  intros garbage n g Hk Hn Hr Hg ones. exact (ones_trellis n g Hk Hn Hr Hg garbage).
Qed.

Lemma C75_first_register_refuted_proof :
exists (memory : list nat) (g g' : list (list Z)) (tr tr' : Trellis), make_trellis_int memory 2 g 0 false = Ok (tr, g) /\
    (* g' writes the same polynomials as g for the constructor without the integer feedback *)
    (let C := {| memory := memory; outs := 2; gens := g'; fback := None; fmt := LSB |} in
     well_formed C /\ (forall i j d : nat, (i < 2)%nat -> (j < 2)%nat -> (d <= nth i memory 0)%nat -> gcoef C i j d = lcoef (nth i memory 0%nat) (mat_get g i j) d) /\
     forall garbage : regs, trellis_of garbage C false = Ok tr') /\
    tr_next tr = tr_next tr' /\ tr_out tr <> tr_out tr'.
Proof.
  exists [2; 1]%nat, [[5; 7]; [1; 3]], [[5; 7]; [2; 6]].
  set (C := {| memory := [2; 1]%nat; outs := 2; gens := [[5; 7]; [2; 6]]; fback := None; fmt := LSB |}).
  assert (W : well_formed C).
  { split; [discriminate|]. split; [reflexivity|]. split; [discriminate|]. split; [|discriminate]. intros i j Hi Hj. unfold kk, C in Hi. cbn in Hi, Hj. change (WW C) with 3%nat.
    destruct i as [|[|i]]; [| |lia]; (destruct j as [|[|j]]; [| |lia]); (split; [unfold C, mat_get; cbn; lia|]; intros d Hd; unfold gcoef; change (WW C) with 3%nat; unfold pcoef; cbn [fmt C]; unfold mem, C, mat_get in *; cbn in Hd |- *; destruct d as [|[|[|d]]]; try lia; reflexivity). }
  eexists. exists (the_trellis C false). split; [vm_compute; reflexivity|]. split; [split; [exact W|]|split; [vm_compute; reflexivity|vm_compute; discriminate]].
  split; [|intros garbage; apply trellis_of_spec; exact W].
  intros i j d Hi Hj Hd. destruct i as [|[|i]]; [| |lia]; (destruct j as [|[|j]]; [| |lia]); cbn in Hd; destruct d as [|[|[|d]]]; try lia; reflexivity.
Qed.

Lemma C75_feedback_refuted_proof :
forall feedback : Z, feedback = 2 \/ feedback = 3 ->
  exists (g : list (list Z)) (tr : Trellis) (s u : Z), make_trellis_int [1; 1]%nat 2 g feedback false = Ok (tr, g) /\ 0 <= s < 4 /\ 0 <= u < 4 /\
    (* line 0 is the recursive register with feedback polynomial 1 + f1 D; line 1 is not *)
    (forall s u : Z, 0 <= s < 4 -> 0 <= u < 4 -> cell [1; 1]%nat (entry (tr_next tr) s u) 0 0 1 = xorb (cell [1; 1]%nat s u 0 0) (lcoef 1 feedback 1 && cell [1; 1]%nat s u 0 1)) /\
    cell [1; 1]%nat (entry (tr_next tr) s u) 0 1 1 <> xorb (cell [1; 1]%nat s u 1 0) (lcoef 1 feedback 1 && cell [1; 1]%nat s u 1 1).
Proof.
  intros feedback H. exists [[2; 3]; [3; 2]].
  assert (Q : forall (P : Z -> Z -> bool), forallb (fun s => forallb (P s) [0; 1; 2; 3]) [0; 1; 2; 3] = true -> forall s u, 0 <= s < 4 -> 0 <= u < 4 -> P s u = true).
  { intros P E s u Hs Hu. rewrite forallb_forall in E. specialize (E s ltac:(cbn; lia)). rewrite forallb_forall in E. apply E. cbn. lia. }
  destruct H as [-> | ->]; eexists; exists 1, 0; (split; [vm_compute; reflexivity|]); (split; [lia|]); (split; [lia|]); (split; [|vm_compute; discriminate]).
  - intros s u Hs Hu. apply eqb_prop. revert s u Hs Hu. apply Q. vm_compute. reflexivity.
  - intros s u Hs Hu. apply eqb_prop. revert s u Hs Hu. apply Q. vm_compute. reflexivity.
Qed.

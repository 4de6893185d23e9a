(* Puncturing and the remaining lemmas for the final forms of C21 - C28. *)
From Verif Require Import Base UtilModel UtilProofs TrellisModel TrellisSpec TrellisProofs FloatRate ConvProofs ConvCode ConvTerm.

(* ---------------------------------------------------------------- a checker for well_formed, used by the examples *)
Definition wf_poly (C : code) (i : nat) (p : Z) : bool :=
  (0 <=? p) && (p <? 2 ^ Z.of_nat (WW C)) && forallb (fun d => negb (pcoef (fmt C) (WW C) p d)) (seq (S (mem C i)) (WW C)).
Definition wf_check (C : code) : bool :=
  negb (kk C =? 0)%nat && (length (gens C) =? kk C)%nat && (match fmt C with OtherFormat => false | _ => true end) &&
  forallb (fun i => forallb (fun j => wf_poly C i (mat_get (gens C) i j)) (seq 0 (outs C))) (seq 0 (kk C)) &&
  match fback C with None => true | Some F => forallb (fun c => forallb (fun i => wf_poly C i (mat_get F c i)) (seq 0 (kk C))) (seq 0 (kk C)) end.

Lemma wf_poly_ok C i p : fmt C <> OtherFormat -> wf_poly C i p = true ->
  0 <= p < 2 ^ Z.of_nat (WW C) /\ forall d, (mem C i < d)%nat -> pcoef (fmt C) (WW C) p d = false.
Proof.
  intros Hf H. unfold wf_poly in H. apply andb_true_iff in H. destruct H as [H1 H2]. assert (Hr : 0 <= p < 2 ^ Z.of_nat (WW C)) by lia.
  split; [exact Hr|]. intros d Hd. rewrite forallb_forall in H2. destruct (Nat.lt_ge_cases d (S (mem C i) + WW C)) as [Hl|Hl].
  - specialize (H2 d). rewrite in_seq in H2. specialize (H2 ltac:(lia)). destruct (pcoef _ _ _ _); [discriminate|reflexivity].
  - unfold pcoef. destruct (fmt C).
    + destruct (Z.eq_dec p 0) as [->|Hp]; [apply Z.bits_0|]. apply Z.bits_above_log2; [lia|]. apply Z.log2_lt_pow2; [lia|].
      apply Z.lt_le_trans with (2 ^ Z.of_nat (WW C)); [lia|]. apply Z.pow_le_mono_r; lia.
    + replace (d <? WW C)%nat with false by lia. reflexivity.
    + contradiction.
Qed.

Lemma wf_check_ok C : wf_check C = true -> well_formed C.
Proof.
  unfold wf_check. intros H. repeat (apply andb_true_iff in H; destruct H as [H ?]).
  assert (Hf : fmt C <> OtherFormat) by (destruct (fmt C); congruence).
  split; [intros E; unfold kk in H; rewrite E in H; discriminate|]. split; [lia|]. split; [exact Hf|]. split.
  - intros i j Hi Hj. unfold gcoef. apply wf_poly_ok; [exact Hf|]. rewrite forallb_forall in H1. specialize (H1 i). rewrite in_seq in H1. specialize (H1 ltac:(lia)).
    rewrite forallb_forall in H1. apply H1. apply in_seq. lia.
  - intros F HF c i Hc Hi. rewrite HF in H0. rewrite forallb_forall in H0. specialize (H0 c). rewrite in_seq in H0. specialize (H0 ltac:(lia)).
    rewrite forallb_forall in H0. specialize (H0 i). rewrite in_seq in H0. specialize (H0 ltac:(lia)).
    destruct (wf_poly_ok C i _ Hf H0) as [H1' H2']. split; [exact H1'|]. intros d Hd. unfold fcoef. rewrite HF. apply H2'. exact Hd.
Qed.

(* ---------------------------------------------------------------- puncturing *)
Lemma slice_assign_length {A} (l : list A) lo hi vals l' : slice_assign l lo hi vals = Ok l' -> length l' = length l.
Proof.
  unfold slice_assign. set (h := Nat.min hi (length l)). set (len := (h - lo)%nat).
  assert (Hw : forall vs : list A, length vs = len -> length (firstn lo l ++ vs ++ skipn (lo + len) l) = length l).
  { intros vs E. rewrite !app_length, firstn_length, skipn_length, E. unfold len, h in *. lia. }
  destruct (Nat.eqb_spec len (length vals)) as [E|E].
  - intros H. injection H as <-. apply Hw. lia.
  - destruct vals as [|v [|v' vals]]; try discriminate. intros H. injection H as <-. apply Hw. apply repeat_length.
Qed.

Lemma enc_step_length tr o s j inp o' s' j' : enc_step tr (o, s, j) inp = Ok (o', s', j') -> length o' = length o.
Proof.
  unfold enc_step. intros H. destruct (table_get (tr_out tr) s (bitarray2dec inp)); cbn [bind] in H; [|discriminate].
  destruct (dec2bitarray a (tr_n tr)); cbn [bind] in H; [|discriminate].
  destruct (slice_assign o _ _ _) eqn:E; cbn [bind] in H; [|discriminate].
  destruct (table_get (tr_next tr) s (bitarray2dec inp)); cbn [bind] in H; [|discriminate].
  injection H as <- _ _. apply (slice_assign_length _ _ _ _ _ E).
Qed.

Lemma enc_foldM_length tr (f : nat -> list Z) l : forall o s j o' s' j', foldM (fun st i => enc_step tr st (f i)) l (o, s, j) = Ok (o', s', j') -> length o' = length o.
Proof.
  induction l as [|i l IH]; intros o s j o' s' j' H; [injection H as <- _ _; reflexivity|]. cbn [foldM] in H.
  destruct (enc_step tr (o, s, j) (f i)) as [[[o1 s1] j1]|] eqn:E; cbn [bind] in H; [|discriminate].
  rewrite (IH _ _ _ _ _ _ H). apply (enc_step_length _ _ _ _ _ _ _ _ E).
Qed.

Lemma filter_len_le {A} (f : A -> bool) l : (length (filter f l) <= length l)%nat.
Proof. induction l as [|x l IH]; [cbn; lia|]. cbn [filter]. destruct (f x); cbn [length]; lia. Qed.

Lemma punct_any row out N : row <> [] -> length out = N -> punct_loop row out (seq 0 N) (repeat 0 N) 0 = Ok (punctured row out).
Proof.
  intros Hne <-. pose proof (punct_loop_spec row out Hne (seq 0 (length out)) [] (repeat 0 (length out))) as H. cbn [app length] in H. rewrite H.
  - unfold punctured. rewrite map_length, skipn_repeat. reflexivity.
  - rewrite repeat_length. pose proof (filter_len_le (keep row) (seq 0 (length out))) as Hl. rewrite seq_length in Hl. exact Hl.
Qed.

Lemma conv_encode_punct tr msg term row out s : row <> [] -> valid_trellis tr -> conv_encode_st msg tr term None = Ok (out, s) ->
  conv_encode_st msg tr term (Some row) = Ok (punctured row out, s).
Proof.
  intros Hne V. unfold conv_encode_st. set (X := match term with Cont => _ | _ => _ end). destruct X as [[inb nin] N].
  set (NN := Z.to_nat N).
  destruct (foldM _ (seq 0 (nin / tr_k tr)) _) as [[[o1 s1] j1]|] eqn:E1; cbn [bind]; [|discriminate].
  apply enc_foldM_length in E1. rewrite repeat_length in E1.
  assert (HH : forall (st : list Z * Z * nat), length (fst (fst st)) = NN ->
     (let '(outbits, current_state, _) := st in p <- punct_loop (repeat 1 (tr_n tr)) outbits (seq 0 NN) (repeat 0 NN) 0 ;; Ok (p, current_state)) = Ok (out, s) ->
     (let '(outbits, current_state, _) := st in p <- punct_loop row outbits (seq 0 NN) (repeat 0 NN) 0 ;; Ok (p, current_state)) = Ok (punctured row out, s)).
  { intros [[o2 s2] j2] Hl. cbn [fst] in Hl. rewrite (punct_all tr V) by exact Hl. cbn [bind]. intros H. injection H as -> ->. rewrite punct_any by assumption. reflexivity. }
  pose proof (HH (o1, s1, j1) E1) as H0.
  destruct (tr_rsc tr); [|exact H0]. destruct term; [exact H0| |exact H0].
  destruct (dec2bitarray s1 (tr_M tr)) as [tb|]; cbn [bind]; [|discriminate].
  destruct (foldM _ (seq 0 (tr_M tr)) _) as [[[o2 s2] j2]|] eqn:E2; cbn [bind]; [|discriminate].
  apply enc_foldM_length in E2. apply (HH (o2, s2, j2)). cbn [fst]. lia.
Qed.

Lemma conv_encode_no_columns tr msg term out s : valid_trellis tr -> conv_encode_st msg tr term None = Ok (out, s) -> out <> [] ->
  conv_encode_st msg tr term (Some []) = Err ZeroDivisionError.
Proof.
  intros V. unfold conv_encode_st. set (X := match term with Cont => _ | _ => _ end). destruct X as [[inb nin] N].
  set (NN := Z.to_nat N).
  destruct (foldM _ (seq 0 (nin / tr_k tr)) _) as [[[o1 s1] j1]|] eqn:E1; cbn [bind]; [|discriminate].
  apply enc_foldM_length in E1. rewrite repeat_length in E1.
  assert (HH : forall (st : list Z * Z * nat), length (fst (fst st)) = NN ->
     (let '(outbits, current_state, _) := st in p <- punct_loop (repeat 1 (tr_n tr)) outbits (seq 0 NN) (repeat 0 NN) 0 ;; Ok (p, current_state)) = Ok (out, s) -> out <> [] ->
     (let '(outbits, current_state, _) := st in p <- punct_loop [] outbits (seq 0 NN) (repeat 0 NN) 0 ;; Ok (p, current_state)) = Err ZeroDivisionError).
  { intros [[o2 s2] j2] Hl. cbn [fst] in Hl. rewrite (punct_all tr V) by exact Hl. cbn [bind]. intros H Ho. injection H as -> ->. destruct NN; [destruct out; [contradiction|discriminate Hl]|]. reflexivity. }
  pose proof (HH (o1, s1, j1) E1) as H0.
  destruct (tr_rsc tr); [|exact H0]. destruct term; [exact H0| |exact H0].
  destruct (dec2bitarray s1 (tr_M tr)) as [tb|]; cbn [bind]; [|discriminate].
  destruct (foldM _ (seq 0 (tr_M tr)) _) as [[[o2 s2] j2]|] eqn:E2; cbn [bind]; [|discriminate].
  apply enc_foldM_length in E2. apply (HH (o2, s2, j2)). cbn [fst]. lia.
Qed.

(* the coded length: enough room for whole words *)
Lemma room k n L : (1 <= k)%nat -> (1 <= n)%nat -> rate_ok k n = true -> Z.of_nat L * Z.of_nat n < 2 ^ 49 ->
  (L / k * n <= Z.to_nat (int_div_rate (Z.of_nat L) k n))%nat.
Proof.
  intros Hk Hn Hr Hb. pose proof (int_div_rate_ge k n (Z.of_nat (L / k)) (Z.of_nat L) Hk Hn Hr) as H.
  pose proof (Nat.mul_div_le L k ltac:(lia)) as Hd.
  assert (Hle : Z.of_nat k * Z.of_nat (L / k) <= Z.of_nat L) by lia. specialize (H Hle (Nat2Z.is_nonneg _) Hb). set (q := (L / k)%nat) in *. clearbody q. set (v := int_div_rate _ _ _) in *. clearbody v. clear - H. nia.
Qed.
Lemma room_exact k n T : (1 <= k)%nat -> (1 <= n)%nat -> rate_ok k n = true -> Z.of_nat (T * k) * Z.of_nat n < 2 ^ 49 ->
  Z.to_nat (int_div_rate (Z.of_nat (T * k)) k n) = (T * n)%nat.
Proof.
  intros Hk Hn Hr Hb. replace (Z.of_nat (T * k)) with (Z.of_nat k * Z.of_nat T) by lia. rewrite int_div_rate_exact; try assumption; try lia.
Qed.

(* encoding without tail bits, whole words *)
Lemma cont_exact tr msg T : valid_trellis tr -> bits msg -> length msg = (T * tr_k tr)%nat -> rate_ok (tr_k tr) (tr_n tr) = true ->
  Z.of_nat (length msg) * Z.of_nat (tr_n tr) < 2 ^ 49 ->
  conv_encode_st msg tr Cont None = Ok (bitstream (tr_n tr) (emit (entry (tr_next tr)) (entry (tr_out tr)) 0 (symbols tr msg)), walk (entry (tr_next tr)) 0 (symbols tr msg)).
Proof.
  intros V Hb Hl Hr Hs. pose proof V as (Hk & Hn & _).
  assert (HT : (length msg / tr_k tr)%nat = T) by (rewrite Hl; apply Nat.div_mul; lia).
  rewrite (conv_encode_plain tr V msg msg (T * tr_n tr)); [rewrite HT, Nat.sub_diag; cbn [repeat]; rewrite app_nil_r; reflexivity|exact Hb|reflexivity| |].
  - rewrite Hl. rewrite room_exact; try assumption; [reflexivity|rewrite <- Hl; exact Hs].
  - rewrite HT. lia.
Qed.

Lemma emit_bits_length tr msg : length (bitstream (tr_n tr) (emit (entry (tr_next tr)) (entry (tr_out tr)) 0 (symbols tr msg))) = (length msg / tr_k tr * tr_n tr)%nat.
Proof. rewrite bitstream_length, emit_length, symbols_length. reflexivity. Qed.

Lemma symbols_app tr a b T : (1 <= tr_k tr)%nat -> length a = (T * tr_k tr)%nat -> symbols tr (a ++ b) = symbols tr a ++ symbols tr b.
Proof.
  intros Hk Hl. unfold symbols. rewrite app_length, Hl, Nat.div_mul by lia.
  replace (T * tr_k tr + length b)%nat with (length b + T * tr_k tr)%nat by lia. rewrite Nat.div_add by lia.
  rewrite (Nat.add_comm (length b / tr_k tr)), seq_app, map_app. f_equal.
  - apply map_ext_in. intros i Hi. apply in_seq in Hi. f_equal. unfold slice.
    rewrite skipn_app. rewrite firstn_app. replace ((i + 1) * tr_k tr - i * tr_k tr - length (skipn (i * tr_k tr) a))%nat with 0%nat; [cbn [firstn]; apply app_nil_r|].
    rewrite skipn_length, Hl. nia.
  - cbn [Nat.add]. rewrite <- (Nat.add_0_r T) at 1.
    replace (seq (T + 0) (length b / tr_k tr)) with (map (fun i => (T + i)%nat) (seq 0 (length b / tr_k tr))).
    + rewrite map_map. apply map_ext. intros i. f_equal. unfold slice. rewrite skipn_app, (skipn_all2 a) by (rewrite Hl; nia). cbn [app].
      rewrite Hl. f_equal; [lia|]. f_equal. nia.
    + generalize (length b / tr_k tr)%nat. intros m. apply nth_ext with (d := 0%nat) (d' := 0%nat); [rewrite map_length, !seq_length; reflexivity|].
      intros i Hi. rewrite map_length, seq_length in Hi. rewrite nth_map_seq by exact Hi. rewrite seq_nth by exact Hi. lia.
Qed.

(* ---- slices of concatenations (for the tail of recursive encoders with several lines) *)
Lemma slice_len {A} (l : list A) a b : length (slice l a b) = Nat.min (b - a) (length l - a).
Proof. unfold slice. rewrite firstn_length, skipn_length. reflexivity. Qed.
Lemma slice_app_l {A} (l m : list A) a b : (b <= length l)%nat -> slice (l ++ m) a b = slice l a b.
Proof.
  intros H. unfold slice. rewrite skipn_app, firstn_app, skipn_length. replace (b - a - (length l - a))%nat with 0%nat by lia. rewrite app_nil_r. reflexivity.
Qed.
Lemma slice_app_r {A} (l m : list A) a b : slice (l ++ m) (length l + a) (length l + b) = slice m a b.
Proof.
  unfold slice. rewrite skipn_app, skipn_all2 by lia. cbn [app]. f_equal; [lia|]. f_equal. lia.
Qed.
Lemma slice_concat_words {A} (word : nat -> list A) k : (forall i, length (word i) = k) -> forall M i, (i < M)%nat ->
  slice (concat (map word (seq 0 M))) (i * k) ((i + 1) * k) = word i.
Proof.
  intros Lw. assert (Lt : forall m a, length (concat (map word (seq a m))) = (m * k)%nat) by (induction m; intros a; [reflexivity|]; cbn [seq map concat]; rewrite app_length, Lw, IHm; lia).
  intros M i Hi. replace M with (i + S (M - S i))%nat by lia. rewrite seq_app, map_app, concat_app. rewrite <- (Nat.add_0_r (i * k)). replace ((i + 1) * k)%nat with (i * k + k)%nat by lia. rewrite <- (Lt i 0%nat) at 1 2. rewrite slice_app_r. cbn [seq map concat Nat.add].
  rewrite slice_app_l by (rewrite Lw; lia). unfold slice. cbn [skipn]. rewrite Nat.sub_0_r. rewrite <- (Lw i). apply firstn_all.
Qed.
Lemma b2d_zeros z l : bitarray2dec (repeat 0 z ++ l) = bitarray2dec l.
Proof. induction z as [|z IH]; [reflexivity|]. cbn [repeat app]. rewrite bitarray2dec_cons, IH. lia. Qed.

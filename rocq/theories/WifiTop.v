(* Final forms of the 802.11 theorems (statements repeated in P_Wifi.v). *)
From Coq Require Import Reals Lra.
From Verif Require Import Base UtilModel UtilProofs TrellisModel TrellisSpec TrellisProofs FloatRate ConvProofs ConvCode ConvMore ConvTop
  ViterbiModel ViterbiReal ViterbiSpec ViterbiProofs ViterbiArray ViterbiRun ViterbiCore ViterbiInst ViterbiTop ViterbiErase
  LinksModel LinksSpec LinksProofs LinksTop PunctModel PunctProofs WifiModel WifiSpec WifiProofs.
Local Open Scope Z_scope.

Lemma C30_soft_erasures_proof :
forall (garbage : regs) (C : code) (rsc : bool) (tr : Trellis) (us : list Z) (received : list R) (known : nat -> bool) (tb_depth : option nat) gp (gs : nat -> scratch R),
    trellis_of garbage C rsc = Ok tr -> decodable C (length us) gs -> usable C (length us) tb_depth -> inputs (kk C) us ->
    length received = (length us * outs C)%nat ->
    (forall i, (i < length received)%nat -> if known i then carries (nth i received 0%R) (nth i (encoded tr us) 0) else nth i received 0%R = 0%R) ->
    (forall t, (t < length us)%nat -> determines C (fun j => known (t * outs C + j)%nat)) ->
    exists caller, viterbi_decode Rplus Rleb 0%R soft received tr tb_depth gp gs = Ok (map Some (bitstream (kk C) us), caller).
Proof.
  exact soft_erasures.
Qed.

Lemma wf543 : well_formed (rate_half 5 43 MSB). Proof. apply wf_check_ok. reflexivity. Qed.
Lemma wifi_is garbage : wifi_trellis garbage = trellis_of garbage (rate_half 5 43 MSB) false.
Proof.
  unfold wifi_trellis, trellis_of, make_trellis. cbn [memory outs gens fback fmt rate_half].
  change (poly_array MSB (max_mem wifi_memory + 1) (length wifi_generators) 2 wifi_generators) with (poly_array MSB (max_mem [6%nat] + 1) (length [[5; 43]]) 2 [[5; 43]]). reflexivity.
Qed.

Lemma C59_generators_proof :
forall garbage garbage' : regs, exists tr, wifi_trellis garbage = Ok tr /\ trellis_of garbage' (rate_half 5 43 MSB) false = Ok tr.
Proof.
  intros g g'. exists (the_trellis (rate_half 5 43 MSB) false). rewrite wifi_is, !trellis_of_spec by exact wf543. split; reflexivity.
Qed.

Lemma C59_encoding_proof :
(* the two output streams are m(D) (1 + D^2) and m(D) (1 + D + D^3 + D^5) *)
  forall (garbage : regs) (tr : Trellis) (msg : list Z), wifi_trellis garbage = Ok tr -> bits msg -> Z.of_nat (length msg) * 2 < 2 ^ 49 ->
    let m := fun (t d : nat) => if (d <=? t)%nat then nth (t - d) msg 0 else 0 in
    exists out, conv_encode msg tr Cont None = Ok out /\ length out = (2 * length msg)%nat /\
      forall t, (t < length msg)%nat ->
        nth (2 * t) out 0 = (m t 0%nat + m t 2%nat) mod 2 /\
        nth (2 * t + 1) out 0 = (m t 0%nat + m t 1%nat + m t 3%nat + m t 5%nat) mod 2.
Proof.
  intros garbage tr msg E Hb Hl m. rewrite wifi_is in E. destruct (C23_convolution_proof garbage (rate_half 5 43 MSB) false tr msg (length msg) wf543 eq_refl E) as (out & E1 & L1 & H);
    [cbn; lia|reflexivity|exact Hb|cbn; lia|cbn; lia|].
  exists out. split; [exact E1|]. split; [rewrite L1; cbn [outs rate_half]; lia|]. intros t Ht. pose proof (H t 0%nat Ht ltac:(cbn; lia)) as H0. pose proof (H t 1%nat Ht ltac:(cbn; lia)) as H1.
  clear H. cbn [outs rate_half] in H0, H1. replace (2 * t)%nat with (t * 2 + 0)%nat by lia. replace (t * 2 + 0 + 1)%nat with (t * 2 + 1)%nat by lia. rewrite H0, H1. clear H0 H1.
  unfold line_sum. change (kk (rate_half 5 43 MSB)) with 1%nat. cbn [seq map]. change (mem (rate_half 5 43 MSB) 0) with 6%nat. cbn [seq map].
  change (gcoef (rate_half 5 43 MSB) 0 0 0) with true. change (gcoef (rate_half 5 43 MSB) 0 0 1) with false. change (gcoef (rate_half 5 43 MSB) 0 0 2) with true.
  change (gcoef (rate_half 5 43 MSB) 0 0 3) with false. change (gcoef (rate_half 5 43 MSB) 0 0 4) with false. change (gcoef (rate_half 5 43 MSB) 0 0 5) with false. change (gcoef (rate_half 5 43 MSB) 0 0 6) with false.
  change (gcoef (rate_half 5 43 MSB) 0 1 0) with true. change (gcoef (rate_half 5 43 MSB) 0 1 1) with true. change (gcoef (rate_half 5 43 MSB) 0 1 2) with false.
  change (gcoef (rate_half 5 43 MSB) 0 1 3) with true. change (gcoef (rate_half 5 43 MSB) 0 1 4) with false. change (gcoef (rate_half 5 43 MSB) 0 1 5) with true. change (gcoef (rate_half 5 43 MSB) 0 1 6) with false.
  cbn [andb xsum fold_right]. rewrite !Nat.mul_1_r, !Nat.add_0_r.
  assert (Hm : forall d, m t d = Z.b2z ((d <=? t)%nat && (nth (t - d) msg 0 =? 1))).
  { intros d. unfold m. destruct (d <=? t)%nat; [|reflexivity]. cbn [andb]. destruct (bits_nth msg (t - d) Hb) as [-> | ->]; reflexivity. }
  rewrite !Hm. split.
  - destruct ((0 <=? t)%nat && (nth (t - 0) msg 0 =? 1)), ((2 <=? t)%nat && (nth (t - 2) msg 0 =? 1)); reflexivity.
  - destruct ((0 <=? t)%nat && (nth (t - 0) msg 0 =? 1)), ((1 <=? t)%nat && (nth (t - 1) msg 0 =? 1)), ((3 <=? t)%nat && (nth (t - 3) msg 0 =? 1)), ((5 <=? t)%nat && (nth (t - 5) msg 0 =? 1)); reflexivity.
Qed.

Lemma C59_standard_refuted_proof :
(* the standard's generators are octal 133 and 171: g0 = 1 + D^2 + D^3 + D^5 + D^6, g1 = 1 + D + D^2 + D^3 + D^6 *)
  forall (garbage garbage' : regs) (f : poly_format) (tr std : Trellis),
    wifi_trellis garbage = Ok tr -> trellis_of garbage' (rate_half 91 121 f) false = Ok std ->
    conv_encode [1; 0; 0; 0; 0; 0; 0] tr Cont None <> conv_encode [1; 0; 0; 0; 0; 0; 0] std Cont None.
Proof.
  intros g g' f tr std E1 E2. rewrite wifi_is, trellis_of_spec in E1 by exact wf543. injection E1 as <-.
  destruct f; [| |discriminate E2]; rewrite trellis_of_spec in E2 by (apply wf_check_ok; reflexivity); injection E2 as <-; intros H; vm_compute in H; discriminate H.
Qed.

Lemma C59_catastrophic_proof :
(* N ones give only 5 ones at the start: the code is catastrophic, a fixed number of channel errors can cause any number of decoding errors *)
  forall (garbage : regs) (tr : Trellis) (N : nat), wifi_trellis garbage = Ok tr -> Z.of_nat N * 2 + 10 < 2 ^ 49 ->
    conv_encode (repeat 1 (5 + N)) tr Cont None = Ok ([1; 1; 1; 0; 0; 0; 0; 1; 0; 1] ++ repeat 0 (2 * N)) /\
    conv_encode (repeat 0 (5 + N)) tr Cont None = Ok (repeat 0 (10 + 2 * N)).
Proof.
  intros garbage tr N E HN.
  assert (Hones : bits (repeat 1 (5 + N))) by (apply Forall_forall; intros x Hx; apply repeat_spec in Hx; right; exact Hx).
  assert (Hzeros : bits (repeat 0 (5 + N))) by apply bits_repeat0.
  destruct (C59_encoding_proof garbage tr _ E Hones) as (o1 & E1 & L1 & H1); [rewrite repeat_length; lia|]. destruct (C59_encoding_proof garbage tr _ E Hzeros) as (o0 & E0 & L0 & H0); [rewrite repeat_length; lia|].
  rewrite repeat_length in *. rewrite E1, E0. cbv zeta in H1, H0.
  assert (N1 : forall t d, (t < 5 + N)%nat -> nth (t - d) (repeat 1 (5 + N)) 0 = 1) by (intros t d Ht; apply nth_repeat_lt; lia).
  assert (Hidx : forall i, i = (2 * (i / 2) + 0)%nat \/ i = (2 * (i / 2) + 1)%nat) by (intros i; pose proof (Nat.div_mod i 2 ltac:(lia)); pose proof (Nat.mod_upper_bound i 2 ltac:(lia)); lia).
  split; f_equal; apply nth_ext_Z.
  - rewrite L1, app_length, repeat_length. cbn [length]. lia.
  - intros i Hi. rewrite L1 in Hi. assert (Ht : (i / 2 < 5 + N)%nat) by (apply Nat.div_lt_upper_bound; lia). specialize (H1 (i / 2)%nat Ht). rewrite !N1 in H1 by exact Ht. set (t := (i / 2)%nat) in *.
    destruct (Nat.lt_ge_cases t 5) as [L|L].
    + destruct (Hidx i) as [-> | ->]; fold t; rewrite ?Nat.add_0_r; (rewrite (proj1 H1) || rewrite (proj2 H1)); clearbody t; clear - L;
        (destruct t as [|[|[|[|[|t]]]]]; [..|lia]; reflexivity).
    + destruct H1 as [A B]. assert ((0 <=? t)%nat = true /\ (1 <=? t)%nat = true /\ (2 <=? t)%nat = true /\ (3 <=? t)%nat = true /\ (5 <=? t)%nat = true) as (Q0 & Q1 & Q2 & Q3 & Q5) by (rewrite !Nat.leb_le; lia).
      rewrite Q0, Q2 in A. rewrite Q0, Q1, Q3, Q5 in B. rewrite app_nth2 by (cbn [length]; destruct (Hidx i); lia). rewrite nth_repeat_same.
      destruct (Hidx i) as [-> | ->]; fold t; rewrite ?Nat.add_0_r; [rewrite A|rewrite B]; reflexivity.
  - rewrite L0, repeat_length. lia.
  - intros i Hi. rewrite L0 in Hi. rewrite nth_repeat_same. assert (Ht : (i / 2 < 5 + N)%nat) by (apply Nat.div_lt_upper_bound; lia). specialize (H0 (i / 2)%nat Ht). set (t := (i / 2)%nat) in *.
    rewrite !nth_repeat_same in H0. destruct H0 as [A B]. assert (Hif : forall b : bool, (if b then 0 else 0) = 0) by (intros []; reflexivity). rewrite !Hif in A. rewrite !Hif in B.
    destruct (Hidx i) as [-> | ->]; fold t; rewrite ?Nat.add_0_r; [rewrite A|rewrite B]; reflexivity.
Qed.

Lemma rates_ok : forallb (fun q => forallb (fun p => let '(n, d) := link_rate (Z.of_nat p) (Z.of_nat q) in
  (n * Z.of_nat q =? Z.of_nat p * d) && (Z.gcd n d =? 1) && (0 <? d)) (seq 1 q)) (seq 1 100) = true.
Proof. vm_compute. reflexivity. Qed.

Lemma C60_float_rate_proof :
(* a float rate p / q with q <= 100 is turned back into the fraction p / q *)
  forall p q n d : Z, 0 < p <= q -> q <= 100 -> link_rate p q = (n, d) -> n * q = p * d /\ Z.gcd n d = 1 /\ 0 < d.
Proof.
  intros p q n d Hp Hq E. pose proof rates_ok as H. rewrite forallb_forall in H. specialize (H (Z.to_nat q) ltac:(apply in_seq; lia)). rewrite forallb_forall in H.
  specialize (H (Z.to_nat p) ltac:(apply in_seq; lia)). rewrite !Z2Nat.id in H by lia. rewrite E in H. rewrite !andb_true_iff, !Z.eqb_eq, Z.ltb_lt in H. tauto.
Qed.

Lemma kept_sent v i : sent (Some v) i = kept v i. Proof. reflexivity. Qed.
Lemma rank_add pv n : forall m, (1 <= length pv)%nat -> rank pv (length pv * n + m) = (rank pv (length pv * n) + rank pv m)%nat.
Proof.
  intros m Hp. induction m as [|m IH]; [rewrite Nat.add_0_r; unfold rank at 3; cbn; lia|]. rewrite Nat.add_succ_r, !rank_S, IH.
  assert (kept pv (length pv * n + m) = kept pv m) as ->; [|lia]. unfold kept. rewrite Nat.add_comm, Nat.mul_comm, Nat.mod_add by lia. reflexivity.
Qed.
Lemma rank_periods pv n : (1 <= length pv)%nat -> rank pv (length pv * n) = (rank pv (length pv) * n)%nat.
Proof. intros Hp. induction n as [|n IH]; [rewrite !Nat.mul_0_r; reflexivity|]. replace (length pv * S n)%nat with (length pv * n + length pv)%nat by lia. rewrite rank_add, IH by exact Hp. lia. Qed.
Lemma before_None i : before None i = i.
Proof. unfold before. replace (filter (sent None) (seq 0 i)) with (seq 0 i); [apply seq_length|]. generalize (seq 0 i) as l. induction l as [|x l IH]; [reflexivity|]. cbn [filter sent]. f_equal. exact IH. Qed.
Lemma codings_cases mcs p q : wifi_coding mcs = Ok (p, q) -> In (p, q) [(1, 2); (2, 3); (3, 4); (5, 6)].
Proof.
  unfold wifi_coding, py_get. destruct (py_idx _ _) as [n|]; [|discriminate]. destruct (nth_error wifi_codings n) as [a|] eqn:E; [|discriminate]. intros H. injection H as ->.
  apply nth_error_In in E. cbn in E. cbn [In]. tauto.
Qed.
(* the puncturing vector of a rate: period 2 p, q transmitted positions, at least one in every pair *)
Lemma vector_facts p q pv : In (p, q) [(1, 2); (2, 3); (3, 4); (5, 6)] -> wifi_puncture_matrix p q = Some pv ->
  length pv = (2 * Z.to_nat p)%nat /\ rank pv (length pv) = Z.to_nat q /\ (1 <= length pv)%nat /\ forall t, kept pv (2 * t) = true \/ kept pv (2 * t + 1) = true.
Proof.
  intros H E. assert (Hall : forall v P, length v = (2 * P)%nat -> (0 < P)%nat -> forallb (fun t => (nth (2 * t) v 0 =? 1) || (nth (2 * t + 1) v 0 =? 1)) (seq 0 P) = true -> forall t, kept v (2 * t) = true \/ kept v (2 * t + 1) = true).
  { intros v P L HP HF t. rewrite forallb_forall in HF. specialize (HF (t mod P)%nat ltac:(apply in_seq; pose proof (Nat.mod_upper_bound t P ltac:(lia)); lia)). apply orb_true_iff in HF.
    unfold kept. rewrite L. rewrite Nat.mul_mod_distr_l by lia. replace ((2 * t + 1) mod (2 * P))%nat with (2 * (t mod P) + 1)%nat; [exact HF|].
    pose proof (Nat.div_mod t P ltac:(lia)). pose proof (Nat.mod_upper_bound t P ltac:(lia)). apply (Nat.mod_unique _ _ (t / P)); [lia|]. nia. }
  destruct H as [H|[H|[H|[H|[]]]]]; injection H as <- <-; cbn in E; try discriminate E; injection E as <-; (split; [reflexivity|]; split; [reflexivity|]; split; [cbn; lia|]).
  - apply (Hall _ 2%nat); [reflexivity|lia|reflexivity].
  - apply (Hall _ 3%nat); [reflexivity|lia|reflexivity].
  - apply (Hall _ 5%nat); [reflexivity|lia|reflexivity].
Qed.
Lemma none_half p q : In (p, q) [(1, 2); (2, 3); (3, 4); (5, 6)] -> wifi_puncture_matrix p q = None -> p = 1 /\ q = 2.
Proof. intros H E. destruct H as [H|[H|[H|[H|[]]]]]; injection H as <- <-; cbn in E; try discriminate E. split; reflexivity. Qed.

Lemma wifi_encode garbage tr msg : wifi_trellis garbage = Ok tr -> bits msg -> Z.of_nat (length msg) * 2 < 2 ^ 49 ->
  exists us, conv_encode msg tr Cont None = Ok (encoded tr us) /\ inputs 1 us /\ length us = length msg /\ bitstream 1 us = msg /\ length (encoded tr us) = (2 * length msg)%nat.
Proof.
  intros E Hb Hl. rewrite wifi_is, trellis_of_spec in E by exact wf543. injection E as <-. set (C := rate_half 5 43 MSB) in *.
  pose proof (valid_the_trellis C wf543 false ltac:(cbn; lia)) as V. exists (symbols (the_trellis C false) msg).
  assert (Ls : length (symbols (the_trellis C false) msg) = length msg) by (rewrite symbols_length; apply Nat.div_1_r).
  split; [|split; [|split; [exact Ls|split]]].
  - unfold conv_encode. rewrite (cont_exact _ _ (length msg) V Hb); [reflexivity|cbn; lia|reflexivity|exact Hl].
  - apply (symbols_range (the_trellis C false)); exact Hb.
  - apply (bitstream_symbols (the_trellis C false) msg (length msg)); [cbn; lia|exact Hb|cbn; lia].
  - rewrite encoded_length, Ls. cbn. lia.
Qed.

Section Chain.
Context (garbage : regs) (tr : Trellis) (p q : Z) (msg : list Z).
Hypothesis E : wifi_trellis garbage = Ok tr.
Hypothesis Hin : In (p, q) [(1, 2); (2, 3); (3, 4); (5, 6)].
Hypothesis Hb : bits msg.
Hypothesis Hl : Z.of_nat (length msg) * 2 < 2 ^ 49.
Hypothesis Hpos : (0 < length msg)%nat.
Hypothesis Hp : (p | Z.of_nat (length msg)).
Let pv := wifi_puncture_matrix p q.

Lemma pq_pos : 0 < p /\ p <= q <= 2 * p.
Proof using Hin. clear - Hin. destruct Hin as [H|[H|[H|[H|[]]]]]; injection H as <- <-; lia. Qed.

Lemma chain : exists us out, conv_encode msg tr Cont None = Ok (encoded tr us) /\ inputs 1 us /\ length us = length msg /\ bitstream 1 us = msg /\
  length (encoded tr us) = (2 * length msg)%nat /\
  wifi_code_bits tr (p, q) msg = Ok out /\ Z.of_nat (length out) * p = Z.of_nat (length msg) * q /\ length out = before pv (2 * length msg) /\
  (forall i, (i < 2 * length msg)%nat -> sent pv i = true -> (before pv i < length out)%nat /\ nth (before pv i) out 0 = nth i (encoded tr us) 0) /\
  forall (T : Type) (zero : T) (r : list T), length r = length out ->
    match pv with Some v => depuncturing zero r v (Z.to_nat (wifi_coded_len (Z.of_nat (length r)) p q)) | None => Ok r end =
    Ok (map (fun i => if sent pv i then nth (before pv i) r zero else zero) (seq 0 (2 * length msg))).
Proof.
  destruct (wifi_encode garbage tr msg E Hb Hl) as (us & E1 & Hu & Lu & Bu & Le). exists us. destruct pq_pos as [Hp0 Hpq]. destruct Hp as [k Hk].
  assert (Hk0 : 0 < k) by nia.
  destruct pv as [v|] eqn:Ev; unfold pv in Ev.
  - destruct (vector_facts p q v Hin Ev) as (V1 & V2 & V3 & V4).
    exists (map (fun i => nth i (encoded tr us) 0) (filter (kept v) (seq 0 (2 * length msg)))).
    assert (Lout : length (map (fun i => nth i (encoded tr us) 0) (filter (kept v) (seq 0 (2 * length msg)))) = rank v (2 * length msg)) by (rewrite map_length; reflexivity).
    assert (Hperiod : (2 * length msg = length v * Z.to_nat k)%nat) by (rewrite V1; nia).
    assert (Lout2 : Z.of_nat (rank v (2 * length msg)) * p = Z.of_nat (length msg) * q).
    { rewrite Hperiod, rank_periods, V2 by exact V3. rewrite Hk, Nat2Z.inj_mul, !Z2Nat.id by lia. ring. }
    split; [exact E1|]. split; [exact Hu|]. split; [exact Lu|]. split; [exact Bu|]. split; [exact Le|].
    split; [unfold wifi_code_bits; rewrite E1; cbn [bind fst snd]; rewrite Ev, (puncturing_spec 0 v) by exact V3; rewrite Le; reflexivity|].
    rewrite Lout. split; [exact Lout2|]. split; [reflexivity|].
    assert (Hrank : forall i, (i < 2 * length msg)%nat -> sent (Some v) i = true -> (rank v i < rank v (2 * length msg))%nat).
    { intros i Hi Hs. rewrite kept_sent in Hs. pose proof (rank_S v i) as HS. rewrite Hs in HS. pose proof (rank_mono v (S i) (2 * length msg) ltac:(lia)). lia. }
    split.
    + intros i Hi Hs. split; [apply Hrank; assumption|]. change (before (Some v) i) with (rank v i).
      assert (Hx : puncturing (encoded tr us) v = Ok (map (fun i => nth i (encoded tr us) 0) (filter (kept v) (seq 0 (2 * length msg))))) by (rewrite (puncturing_spec 0 v), Le by exact V3; reflexivity).
      destruct (depuncture_puncture 0 v _ _ V3 Hx) as [_ Hd].
      assert (Hn : nth i (map (fun j => if kept v j then nth (rank v j) (map (fun i => nth i (encoded tr us) 0) (filter (kept v) (seq 0 (2 * length msg)))) 0 else 0) (seq 0 (2 * length msg))) 0 = nth i (encoded tr us) 0).
      { rewrite Le in Hd. rewrite depuncturing_spec in Hd by exact V3. rewrite Lout in Hd. rewrite Nat.leb_refl in Hd. apply (f_equal (fun r => match r with Ok l => l | Err _ => [] end)) in Hd. cbv iota beta in Hd. rewrite Hd, nth_map_seq by exact Hi. rewrite kept_sent in Hs. rewrite Hs. reflexivity. }
      rewrite nth_map_seq in Hn by exact Hi. rewrite kept_sent in Hs. rewrite Hs in Hn. exact Hn.
    + intros T zero r Hr. rewrite (coded_len_exact _ p q (Z.of_nat (length msg))) by (try (change (2 ^ 49) with 562949953421312 in *; change (2 ^ 52) with 4503599627370496); try rewrite Hr; lia).
      replace (Z.to_nat (2 * Z.of_nat (length msg))) with (2 * length msg)%nat by lia. rewrite depuncturing_spec by exact V3. rewrite Hr, Nat.leb_refl. reflexivity.
  - destruct (none_half p q Hin Ev) as [-> ->]. exists (encoded tr us). split; [exact E1|]. split; [exact Hu|]. split; [exact Lu|]. split; [exact Bu|]. split; [exact Le|].
    split; [unfold wifi_code_bits; rewrite E1; reflexivity|]. rewrite Le, before_None. split; [lia|]. split; [reflexivity|]. split.
    + intros i Hi _. rewrite before_None. split; [exact Hi|reflexivity].
    + intros T zero r Hr. f_equal. apply (nth_ext _ _ zero zero); [rewrite map_seq_length; exact Hr|]. intros i Hi. rewrite nth_map_seq by lia. cbn [sent]. rewrite before_None. reflexivity.
Qed.

Lemma chain_decode gp (gs : nat -> scratch R) out llrs : wifi_code_bits tr (p, q) msg = Ok out -> Forall2 carries llrs out ->
  (5 <= length msg)%nat -> shaped (rate_half 5 43 MSB) gs -> exists caller, wifi_decode tr (p, q) llrs gp gs = Ok (map Some msg, caller).
Proof.
  intros Eo HF H5 Hg. destruct chain as (us & out' & E1 & Hu & Lu & Bu & Le & Eo' & Lo & _ & Hs & Hd). rewrite Eo in Eo'. injection Eo' as <-.
  pose proof (Forall2_length _ _ _ HF) as Lr. specialize (Hd R 0%R llrs Lr). set (received := map (fun i => if sent pv i then nth (before pv i) llrs 0%R else 0%R) (seq 0 (2 * length msg))) in Hd.
  assert (Hdec : wifi_decode tr (p, q) llrs gp gs = viterbi_decode Rplus Rleb 0%R soft received tr None gp gs).
  { unfold wifi_decode. cbn [fst snd]. fold pv. destruct pv as [v|]; [rewrite Hd; reflexivity|]. injection Hd as Hd. cbn [bind]. rewrite Hd at 1. reflexivity. }
  rewrite Hdec. replace (map Some msg) with (map Some (bitstream 1 us)) by (rewrite Bu; reflexivity). pose proof E as E'. rewrite wifi_is in E'.
  assert (Lrec : length received = (2 * length msg)%nat) by (unfold received; apply map_seq_length).
  apply (soft_erasures garbage (rate_half 5 43 MSB) false tr us received (sent pv) None gp gs E').
  - split; [exact wf543|]. split; [left; reflexivity|]. split; [cbn; lia|]. split; [cbn; lia|]. split; [reflexivity|]. split; [change (kk (rate_half 5 43 MSB)) with 1%nat; rewrite Lu; lia|exact Hg].
  - rewrite Lu. unfold usable, depth, steps. change (kk (rate_half 5 43 MSB)) with 1%nat. change (MM (rate_half 5 43 MSB)) with 6%nat. rewrite !Nat.mul_1_r, Nat.div_1_r. lia.
  - exact Hu.
  - rewrite Lrec, Lu. cbn. lia.
  - intros i Hi. rewrite Lrec in Hi. unfold received. rewrite nth_map_seq by exact Hi. destruct (sent pv i) eqn:Es; [|reflexivity]. destruct (Hs i Hi Es) as [B1 B2]. rewrite <- B2.
    clear - HF B1 Lr. rewrite <- Lr in B1. clear Lr. revert B1. generalize (before pv i) as n. induction HF as [|x y l l' Hxy HF IH]; intros n Hn; [cbn in Hn; lia|]. destruct n; cbn [nth]; [exact Hxy|]. apply IH. cbn in Hn. lia.
  - intros t _ u u' Hu1 Hu2 H. change (2 ^ Z.of_nat (kk (rate_half 5 43 MSB))) with 2 in *.
    assert (Hone : sent pv (2 * t) = true \/ sent pv (2 * t + 1) = true).
    { destruct pv as [v|] eqn:Ev; [|left; reflexivity]. unfold pv in Ev. destruct (vector_facts p q v Hin Ev) as (_ & _ & _ & V4). apply V4. }
    change (outs (rate_half 5 43 MSB)) with 2%nat in H. destruct Hone as [Ho|Ho];
      [specialize (H 0%nat ltac:(lia) ltac:(rewrite Nat.add_0_r, Nat.mul_comm; exact Ho))|specialize (H 1%nat ltac:(lia) ltac:(rewrite (Nat.mul_comm t 2); exact Ho))];
      assert (u = 0 \/ u = 1) as [-> | ->] by lia; assert (u' = 0 \/ u' = 1) as [-> | ->] by lia; try reflexivity; vm_compute in H; discriminate.
Qed.
End Chain.
Lemma fits_mul b p q c f : fits b p q c -> fits b p q (c * f).
Proof. intros [v Hv]. exists (v * f). replace (c * f * q) with (c * q * f) by ring. rewrite Hv. ring. Qed.

Lemma C60_lengths_proof :
(* every scheme, number of antennas, chunk size and number of aggregated frames *)
  forall (garbage : regs) (tr : Trellis) (mcs p q m nb_tx send_chunk : Z) (psk : bool) (frames : nat) (msg : list Z),
    wifi_trellis garbage = Ok tr -> wifi_coding mcs = Ok (p, q) -> wifi_modem mcs = Ok (psk, m) -> 1 <= nb_tx -> (1 <= frames)%nat ->
    let b := wifi_bits_per_symbol m * nb_tx in
    Z.of_nat (length msg) = round_chunk b p q send_chunk * Z.of_nat frames ->
    bits msg -> Z.of_nat (length msg) < 2 ^ 48 ->
    exists coded out, conv_encode msg tr Cont None = Ok coded /\ length coded = (2 * length msg)%nat /\
      wifi_code_bits tr (p, q) msg = Ok out /\
      Z.of_nat (length out) * p = Z.of_nat (length msg) * q /\             (* chunk / rate coded bits *)
      (b | Z.of_nat (length out)) /\                                      (* whole symbol vectors *)
      received_len p q (Z.of_nat (length msg)) = Z.of_nat (length out) /\   (* the array of received values has this size *)
      wifi_coded_len (Z.of_nat (length out)) p q = Z.of_nat (length coded).
Proof.
  intros garbage tr mcs p q m nb_tx sc psk frames msg E Ec Em Ht Hf b Hlen Hb Hl.
  pose proof (codings_cases _ _ _ Ec) as Hin. destruct (pq_pos p q Hin) as [Hp0 Hpq].
  assert (Hb0 : 0 < b).
  { unfold b. assert (0 < wifi_bits_per_symbol m); [|nia]. unfold wifi_modem, py_get in Em. destruct (py_idx _ _) as [i|]; [|discriminate Em]. destruct (nth_error wifi_sizes i) as [a|] eqn:Ei; [|discriminate Em].
    injection Em as _ <-. apply nth_error_In in Ei. cbn in Ei. unfold wifi_bits_per_symbol. destruct Ei as [<-|[<-|[<-|[<-|[<-|[<-|[<-|[<-|[<-|[<-|[]]]]]]]]]]]; reflexivity. }
  destruct (C55_chunk_rounding_proof b p q sc Hb0 Hp0 ltac:(lia)) as (C1 & C2 & _). set (c := round_chunk b p q sc) in *.
  assert (Hfit : fits b p q (Z.of_nat (length msg))) by (rewrite Hlen; apply fits_mul; exact C2). destruct Hfit as [v Hv].
  assert (Hpd : (p | Z.of_nat (length msg))).
  { apply (Z.gauss p q); [exists (v * b); rewrite Z.mul_comm in Hv; rewrite Hv; ring|]. destruct Hin as [H|[H|[H|[H|[]]]]]; injection H as <- <-; reflexivity. }
  assert (Hpos : (0 < length msg)%nat) by nia. assert (Hl2 : Z.of_nat (length msg) * 2 < 2 ^ 49) by (change (2 ^ 49) with (2 ^ 48 * 2); lia).
  destruct (chain garbage tr p q msg E Hin Hb Hl2 Hpos Hpd) as (us & out & E1 & Hu & Lu & Bu & Le & Eo & Lo & _ & Hs & Hd).
  exists (encoded tr us), out. split; [exact E1|]. split; [exact Le|]. split; [exact Eo|]. split; [exact Lo|]. split; [exists v; nia|].
  assert (Hlo : Z.of_nat (length out) <= 2 * Z.of_nat (length msg)) by nia. assert (Hlo0 : 0 < Z.of_nat (length out)) by nia.
  split; [apply received_len_exact; [exact Hin| |lia]|].
  - change (2 ^ 50) with (2 ^ 48 * 4). lia.
  - rewrite (coded_len_exact _ p q (Z.of_nat (length msg))); [rewrite Le; lia|lia| |lia|lia]. change (2 ^ 52) with (2 ^ 48 * 16). lia.
Qed.

Lemma C60_depuncturing_proof :
forall (garbage : regs) (tr : Trellis) (mcs p q : Z) (msg : list Z),
    wifi_trellis garbage = Ok tr -> wifi_coding mcs = Ok (p, q) -> bits msg -> Z.of_nat (length msg) < 2 ^ 48 -> (0 < length msg)%nat -> (p | Z.of_nat (length msg)) ->
    let pv := wifi_puncture_matrix p q in
    exists coded out, conv_encode msg tr Cont None = Ok coded /\ length coded = (2 * length msg)%nat /\ wifi_code_bits tr (p, q) msg = Ok out /\
      (forall i, (i < length coded)%nat -> sent pv i = true -> nth (before pv i) out 0 = nth i coded 0) /\
      forall r : list R, length r = length out ->
        match pv with Some v => depuncturing 0%R r v (Z.to_nat (wifi_coded_len (Z.of_nat (length r)) p q)) | None => Ok r end =
        Ok (map (fun i => if sent pv i then nth (before pv i) r 0%R else 0%R) (seq 0 (length coded))).
Proof.
  intros garbage tr mcs p q msg E Ec Hb Hl Hpos Hpd pv. assert (Hl2 : Z.of_nat (length msg) * 2 < 2 ^ 49) by (change (2 ^ 49) with (2 ^ 48 * 2); lia).
  destruct (chain garbage tr p q msg E (codings_cases _ _ _ Ec) Hb Hl2 Hpos Hpd) as (us & out & E1 & Hu & Lu & Bu & Le & Eo & Lo & _ & Hs & Hd).
  exists (encoded tr us), out. split; [exact E1|]. split; [exact Le|]. split; [exact Eo|]. rewrite Le. split; [intros i Hi Hsi; apply Hs; assumption|]. intros r Hr. apply Hd, Hr.
Qed.

Lemma C60_noiseless_proof :
(* whatever the magnitudes, values with the right signs are decoded to the message, for every scheme *)
  forall (garbage : regs) (tr : Trellis) (mcs p q : Z) (msg out : list Z) (llrs : list R) gp (gs : nat -> scratch R),
    wifi_trellis garbage = Ok tr -> wifi_coding mcs = Ok (p, q) -> bits msg -> Z.of_nat (length msg) < 2 ^ 48 -> (5 <= length msg)%nat -> (p | Z.of_nat (length msg)) ->
    shaped (rate_half 5 43 MSB) gs ->
    wifi_code_bits tr (p, q) msg = Ok out -> Forall2 carries llrs out ->
    exists caller, wifi_decode tr (p, q) llrs gp gs = Ok (map Some msg, caller).
Proof.
  intros garbage tr mcs p q msg out llrs gp gs E Ec Hb Hl Hpos Hpd Hg Eo HF. assert (Hl2 : Z.of_nat (length msg) * 2 < 2 ^ 49) by (change (2 ^ 49) with (2 ^ 48 * 2); lia).
  apply (chain_decode garbage tr p q msg E (codings_cases _ _ _ Ec) Hb Hl2 ltac:(lia) Hpd gp gs out llrs Eo HF Hpos Hg).
Qed.

Lemma C60_unknown_mcs_proof :
forall mcs : Z, 10 <= mcs -> wifi_coding mcs = Err IndexError /\ wifi_modem mcs = Err IndexError.
Proof.
  intros mcs H. unfold wifi_coding, wifi_modem, py_get, py_idx. change (length wifi_codings) with 10%nat. change (length wifi_sizes) with 10%nat.
  assert (mcs <? Z.of_nat 10 = false) as -> by (apply Z.ltb_ge; lia). assert (mcs <? 0 = false) as -> by (apply Z.ltb_ge; lia). rewrite !andb_false_r. split; reflexivity.
Qed.

Lemma C60_schemes_proof :
(* the schemes are those of the documentation: modulation, order and rate, and the puncturing vector keeps q bits out of 2 p *)
  forall (mcs : nat) (b p q : Z), nth_error vht_schemes mcs = Some (b, (p, q)) ->
    wifi_coding (Z.of_nat mcs) = Ok (p, q) /\ wifi_modem (Z.of_nat mcs) = Ok (b <=? 2, 2 ^ b) /\ wifi_bits_per_symbol (2 ^ b) = b /\
    (* the puncturing vector keeps the coded bits of the standard: bit A_i is position 2 (i - 1), bit B_i position 2 (i - 1) + 1 *)
    match wifi_puncture_matrix p q with
    | Some v => bits v /\ Z.of_nat (length v) = 2 * p /\ filter (fun i => nth i v 0 =? 1) (seq 0 (length v)) = kept_bits p
    | None => 2 * p = q
    end /\ Z.of_nat (length (kept_bits p)) = q.
Proof.
  intros mcs b p q H. do 10 (destruct mcs as [|mcs]; [injection H as <- <- <-; split; [reflexivity|]; split; [reflexivity|]; split; [reflexivity|]; (split; [|reflexivity]); cbv -[Z.mul bits filter Z.of_nat length kept_bits]; first [reflexivity|split; [unfold bits, is_bit; repeat (apply Forall_cons; [lia|]); apply Forall_nil|split; reflexivity]]|]). destruct mcs; discriminate H.
Qed.

Lemma C60_short_input_proof :
(* Decoding any array of values, whatever its length: zeros are inserted at the punctured positions of the expected
     number n of coded bits; when the array holds fewer values than n positions need, it is decoded as it is. *)
  forall (tr : Trellis) (mcs p q : Z) (r : list R) (v : list Z) gp (gs : nat -> scratch R),
    wifi_coding mcs = Ok (p, q) -> wifi_puncture_matrix p q = Some v ->
    let n := Z.to_nat (wifi_coded_len (Z.of_nat (length r)) p q) in
    wifi_decode tr (p, q) r gp gs =
    viterbi_decode Rplus Rleb 0%R soft
      (if (before (Some v) n <=? length r)%nat then map (fun i => if sent (Some v) i then nth (before (Some v) i) r 0%R else 0%R) (seq 0 n) else r)
      tr None gp gs.
Proof.
  intros tr mcs p q r v gp gs Ec Ev n. unfold wifi_decode. cbn [fst snd]. rewrite Ev. fold n.
  assert (Hv : (1 <= length v)%nat) by (destruct (codings_cases _ _ _ Ec) as [H|[H|[H|[H|[]]]]]; injection H as <- <-; cbn in Ev; first [discriminate Ev|injection Ev as <-; cbn; lia]).
  rewrite (depuncturing_spec 0%R v r n Hv). change (rank v n) with (before (Some v) n). destruct (_ <=? _)%nat; reflexivity.
Qed.

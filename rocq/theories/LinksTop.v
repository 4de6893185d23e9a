(* Final forms of the link model theorems (statements repeated in P_Links.v). *)
From Coq Require Import Reals Lra.
From Verif Require Import Base LinksModel LinksSpec LinksProofs.

Lemma C55_chunk_rounding_proof :
forall b p q send_chunk : Z, 0 < b -> 0 < p -> 0 < q ->
    let c := round_chunk b p q send_chunk in
    0 < c /\ fits b p q c /\
    (forall c', 0 < c' <= send_chunk -> fits b p q c' -> c' <= c <= send_chunk) /\
    (forall c', 0 < c' -> fits b p q c' -> c <= Z.max c' send_chunk).
Proof.
  intros b p q s Hb Hp Hq c. destruct (divider_facts b p q Hb Hp) as [Hd H]. destruct (round_chunk_facts b p q Hb Hp s) as (H1 & H2 & H3 & H4).
  fold c in H1, H2, H3, H4. cbv zeta in H2, H3, H4. set (d := divider b p q) in *.
  assert (F : forall x, fits b p q x <-> (d | x)).
  { intros x. rewrite <- H. unfold fits. split; intros [v E]; exists v; lia. }
  split; [exact H1|]. split; [apply F, H2|]. split.
  - intros c' Hc' Hf. apply F in Hf. destruct Hf as [v Ev], H2 as [u Eu]. destruct (Z.le_gt_cases d s) as [L|L].
    + specialize (H3 L). split; [|lia]. assert (v <= u); [|nia]. assert (v * d < (u + 1) * d) by lia. assert (v < u + 1) by nia. lia.
    + assert (d <= c') by (apply Z.divide_pos_le; [lia|exists v; exact Ev]). lia.
  - intros c' Hc' Hf. apply F in Hf. destruct Hf as [v Ev]. destruct (Z.le_gt_cases d s) as [L|L].
    + specialize (H3 L). lia.
    + specialize (H4 L). assert (d <= c') by (apply Z.divide_pos_le; [lia|exists v; exact Ev]). lia.
Qed.

Lemma C55_function_proof :
(* The function link_performance is the method, for every link model: a chunk size that is given and not 0 is passed on, and without
     one (or with 0) the chunk is err_min, as in the method called without a chunk size. *)
  forall (W Snr Sy Y G V : Type) (fuel : nat) (m : link W Snr Sy Y G V) (w : W) (snrs : list Snr) (send_max err_min p q : Z),
    (forall c : Z, c <> 0 -> link_performance_function fuel m w snrs send_max err_min (Some c) p q = link_performance fuel m w snrs send_max err_min (Some c) p q) /\
    link_performance_function fuel m w snrs send_max err_min None p q = link_performance fuel m w snrs send_max err_min None p q /\
    link_performance_function fuel m w snrs send_max err_min (Some 0) p q = link_performance fuel m w snrs send_max err_min None p q.
Proof.
  intros W Snr Sy Y G V fuel m w snrs send_max err_min p q. split; [|split; reflexivity]. intros c Hc. unfold link_performance_function. assert (c =? 0 = false) as -> by (apply Z.eqb_neq; exact Hc). reflexivity.
Qed.

Lemma Rlt_Zfrac : forall u v num den N, 0 < v -> 0 < den -> 0 < N -> (Rabs (IZR num / IZR den - IZR u / IZR v) < 1 / IZR (2 * N))%R -> 2 * N * Z.abs (u * den - num * v) < den * v.
Proof.
  intros u v num den N Hv Hd HN H. apply lt_IZR. rewrite !mult_IZR, abs_IZR, minus_IZR, !mult_IZR. rewrite mult_IZR in H. apply IZR_lt in Hv, Hd, HN.
  assert (E : (IZR u * IZR den - IZR num * IZR v = - ((IZR num / IZR den - IZR u / IZR v) * (IZR den * IZR v)))%R) by (field; lra).
  rewrite E, Rabs_Ropp, Rabs_mult. assert (P : (0 < IZR den * IZR v)%R) by nra. rewrite (Rabs_right (IZR den * IZR v)) by lra. set (x := Rabs _) in *.
  assert (Q : (IZR 2 * IZR N * x < 1)%R). { replace 1%R with (IZR 2 * IZR N * (1 / (IZR 2 * IZR N)))%R by (field; lra). apply Rmult_lt_compat_l; lra. } nra.
Qed.

Lemma C55_float_rate_proof :
(* A code rate given as a float: if it is within 1/20000 of a fraction p/q in lowest terms with q at most 100 (as the float nearest to
     p/q is), both methods do exactly what they do with Fraction(p, q).  In general the rate used is a fraction in lowest terms with
     denominator at most 100, and no other such fraction is nearer to the float. *)
  forall (W Snr Sy Y G V : Type) (m : Z -> Z -> link W Snr Sy Y G V) (num den : Z), 0 <= num -> 0 < den -> Z.gcd num den = 1 ->
    (forall p q : Z, 0 < p -> 1 <= q <= 100 -> Z.gcd p q = 1 -> (Rabs (IZR num / IZR den - IZR p / IZR q) < 1 / 20000)%R ->
       (forall fuel w snrs send_max err_min chunk, link_performance_rate fuel m w snrs send_max err_min chunk (RFloat num den) = link_performance fuel (m p q) w snrs send_max err_min chunk p q) /\
       (forall w snrs tx_max err_min chunk ncps stop, full_metrics_rate m w snrs tx_max err_min chunk (RFloat num den) ncps stop = link_performance_full_metrics (m p q) w snrs tx_max err_min chunk p q ncps stop)) /\
    exists r s : Z, 1 <= s <= 100 /\ Z.gcd r s = 1 /\
      (forall u v : Z, 1 <= v <= 100 -> (Rabs (IZR num / IZR den - IZR r / IZR s) <= Rabs (IZR num / IZR den - IZR u / IZR v))%R) /\
      forall fuel w snrs send_max err_min chunk, link_performance_rate fuel m w snrs send_max err_min chunk (RFloat num den) = link_performance_rate fuel m w snrs send_max err_min chunk (RFraction r s).
Proof.
  intros W Snr Sy Y G V m num den Hn Hd Hg. split.
  - intros p q Hp Hq Hpq H. assert (E : limit_denominator 100 num den = (p, q)). { apply limit_recovers; try lia; try assumption. apply (Rlt_Zfrac p q num den (100 * 100)); try lia. exact H. }
    unfold link_performance_rate, full_metrics_rate, rate_used. rewrite E. assert (p =? 0 = false) as -> by (apply Z.eqb_neq; lia). split; reflexivity.
  - pose proof (limit_facts 100 num den ltac:(lia) Hn Hd Hg) as F. unfold link_performance_rate, rate_used. destruct (limit_denominator 100 num den) as [r s]. destruct F as (F1 & F2 & F3). exists r, s. split; [exact F2|]. split; [exact F1|]. split; [|reflexivity].
    intros u v Hv. specialize (F3 u v Hv). assert (Hs : (0 < IZR s)%R) by (apply IZR_lt; lia). assert (Hv' : (0 < IZR v)%R) by (apply IZR_lt; lia). assert (Hd' : (0 < IZR den)%R) by (apply IZR_lt; lia).
    apply IZR_le in F3. rewrite !mult_IZR, !abs_IZR, !minus_IZR, !mult_IZR in F3.
    assert (G1 : forall a b, (0 < b)%R -> (Rabs (IZR num / IZR den - a / b) = Rabs (a * IZR den - IZR num * b) / (IZR den * b))%R).
    { intros a b Hb. replace (IZR num / IZR den - a / b)%R with (- ((a * IZR den - IZR num * b) / (IZR den * b)))%R by (field; lra). rewrite Rabs_Ropp. unfold Rdiv. rewrite Rabs_mult. f_equal. apply Rabs_right. apply Rle_ge, Rlt_le, Rinv_0_lt_compat. nra. }
    rewrite !G1 by assumption. set (x := Rabs (IZR r * _ - _)) in *. set (y := Rabs (IZR u * _ - _)) in *. apply (Rmult_le_reg_r (IZR den * IZR s * IZR v)); [assert (0 < IZR den * IZR s)%R by nra; nra|].
    replace (x / (IZR den * IZR s) * (IZR den * IZR s * IZR v))%R with (x * IZR v)%R by (field; lra). replace (y / (IZR den * IZR v) * (IZR den * IZR s * IZR v))%R with (y * IZR s)%R by (field; lra). exact F3.
Qed.

Section Runs.
Context {W Snr Sy Y G V : Type} (m : link W Snr Sy Y G V) (Hs : sane m).
Lemma snr_loop_simulated send_max err_min chunk fuel : 0 < chunk -> forall snrs w l, snr_loop fuel m send_max err_min chunk w snrs = Ok l ->
  exists runs, simulated m (Z.to_nat chunk) w snrs runs /\ (length runs <= length snrs)%nat /\ (snrs <> [] -> runs <> []) /\
    l = map (fun tr => Some (total_errors tr, chunk * Z.of_nat (length tr))) runs ++ repeat None (length snrs - length runs) /\
    (forall tr, In tr runs ->
       (tr <> []) /\ (send_max <= chunk * Z.of_nat (length tr) \/ err_min <= total_errors tr) /\
       forall k, (k < length tr)%nat -> chunk * Z.of_nat k < send_max /\ total_errors (firstn k tr) < err_min) /\
    (forall i tr, nth_error runs i = Some tr -> (S i < length snrs)%nat -> (length runs = S i <-> total_errors tr < err_min)).
Proof.
  intros Hc. induction snrs as [|s rest IH]; intros w l E; cbn [snr_loop] in E.
  - injection E as <-. exists []. split; [constructor|]. split; [cbn; lia|]. split; [congruence|]. split; [reflexivity|]. split; [intros tr []|].
    intros [|i] tr H; discriminate H.
  - destruct (l_set_snr m w s) as [w1|] eqn:E1; cbn [bind] in E; [|discriminate E].
    destruct (send_loop fuel m send_max err_min chunk 0 0 w1) as [[[be bs] w2]|] eqn:E2; cbn [bind] in E; [|discriminate E].
    destruct (send_loop_run m Hs _ _ _ Hc _ _ _ _ _ _ _ E2) as (tr & T1 & T2 & T3 & T4).
    pose proof (send_loop_facts m Hs send_max err_min chunk Hc fuel 0 0 w1 be bs w2 ltac:(lia) E2) as (_ & _ & F & _).
    destruct (bs =? 0) eqn:E0; [discriminate E|]. apply Z.eqb_neq in E0.
    rewrite Z.add_0_l in T2, T3. subst be bs.
    assert (Htr : (tr <> []) /\ (send_max <= chunk * Z.of_nat (length tr) \/ err_min <= total_errors tr) /\
       forall k, (k < length tr)%nat -> chunk * Z.of_nat k < send_max /\ total_errors (firstn k tr) < err_min).
    { split; [intros ->; cbn in E0; lia|]. split; [exact F|]. intros k Hk. specialize (T4 k Hk). rewrite !Z.add_0_l in T4. exact T4. }
    destruct (total_errors tr <? err_min) eqn:E3.
    + injection E as <-. apply Z.ltb_lt in E3. exists [tr]. split; [eapply next_snr; [exact E1|exact T1|constructor]|]. cbn [length map app].
      split; [lia|]. split; [discriminate|]. split; [f_equal; f_equal; lia|]. split; [intros t [<-|[]]; exact Htr|].
      intros [|i] t H; cbn in H; [injection H as <-; tauto|destruct i; discriminate H].
    + apply Z.ltb_ge in E3. destruct (snr_loop fuel m send_max err_min chunk w2 rest) as [bers|] eqn:E4; cbn [bind] in E; [|discriminate E]. injection E as <-.
      destruct (IH _ _ E4) as (runs & R1 & R2 & R3 & R4 & R5 & R6). exists (tr :: runs). split; [eapply next_snr; eassumption|]. cbn [length map app].
      split; [lia|]. split; [discriminate|]. split; [rewrite R4; reflexivity|]. split; [intros t [<-|Ht]; [exact Htr|apply R5, Ht]|].
      intros [|i] t H Hi; cbn in H.
      * injection H as <-. destruct rest as [|r0 rest]; [cbn in Hi; lia|]. destruct runs; [exfalso; apply R3; [discriminate|reflexivity]|]. cbn [length]. split; lia.
      * rewrite <- (R6 i t H) by lia. lia.
Qed.
End Runs.

Lemma C56_ber_proof :
forall (W Snr Sy Y G V : Type) (m : link W Snr Sy Y G V) (w : W) (snrs : list Snr) (send_max err_min : Z) (send_chunk : option Z) (p q : Z) fuel bers,
    sane m -> (0 < num_bits_symbol m)%nat -> (0 < nb_tx m)%nat -> 0 < p -> 0 < q ->
    link_performance fuel m w snrs send_max err_min send_chunk p q = Ok bers ->
    let n := round_chunk (Z.of_nat (num_bits_symbol m) * Z.of_nat (nb_tx m)) p q (match send_chunk with Some c => c | None => err_min end) in
    exists runs, simulated m (Z.to_nat n) w snrs runs /\ (length runs <= length snrs)%nat /\ (snrs <> [] -> runs <> []) /\
      bers = map (fun tr => Some (total_errors tr, n * Z.of_nat (length tr))) runs ++ repeat None (length snrs - length runs) /\
      (* every simulated SNR: sends at least once, until send_max bits or err_min errors, and not longer *)
      (forall tr, In tr runs -> tr <> [] /\ (send_max <= n * Z.of_nat (length tr) \/ err_min <= total_errors tr) /\
         forall k, (k < length tr)%nat -> n * Z.of_nat k < send_max /\ total_errors (firstn k tr) < err_min) /\
      (* the remaining SNRs are skipped exactly after one with fewer than err_min errors *)
      (forall i tr, nth_error runs i = Some tr -> (S i < length snrs)%nat -> (length runs = S i <-> total_errors tr < err_min)).
Proof.
  intros W Snr Sy Y G V m w snrs smax emin sc p q fuel bers Hs Hb Ht Hp Hq E n. unfold link_performance in E. fold n in E.
  eapply snr_loop_simulated; [exact Hs| |exact E]. apply round_chunk_facts; nia.
Qed.

Lemma C56_ratio_proof :
forall (W Snr Sy Y G V : Type) (m : link W Snr Sy Y G V) (w : W) (snrs : list Snr) (send_max err_min : Z) (send_chunk : option Z) (p q : Z) fuel bers,
    sane m -> (0 < num_bits_symbol m)%nat -> (0 < nb_tx m)%nat -> 0 < p -> 0 < q ->
    link_performance fuel m w snrs send_max err_min send_chunk p q = Ok bers ->
    let n := round_chunk (Z.of_nat (num_bits_symbol m) * Z.of_nat (nb_tx m)) p q (match send_chunk with Some c => c | None => err_min end) in
    length bers = length snrs /\
    forall i errors sent, nth_error bers i = Some (Some (errors, sent)) ->
      (0 <= IZR errors / IZR sent <= 1)%R /\ 0 < sent < send_max + n /\ errors < err_min + n.
Proof.
  intros W Snr Sy Y G V m w snrs smax emin sc p q fuel bers Hs Hb Ht Hp Hq E n. unfold link_performance in E. fold n in E.
  assert (Hn : 0 < n) by (apply round_chunk_facts; nia).
  destruct (snr_loop_facts m Hs _ _ _ _ Hn _ _ _ E) as (H1 & _ & H2 & _). split; [exact H1|]. intros i e s Hi. destruct (H2 i e s Hi) as (A1 & A2 & A3 & A4 & A5).
  assert (0 < IZR s)%R by (apply IZR_lt; lia). split; [|lia]. split.
  - apply Rmult_le_pos; [apply IZR_le; lia|]. left. apply Rinv_0_lt_compat. assumption.
  - apply Rmult_le_reg_r with (IZR s); [assumption|]. unfold Rdiv. rewrite Rmult_assoc, Rinv_l, Rmult_1_r, Rmult_1_l by lra. apply IZR_le. lia.
Qed.

Lemma C56_terminates_proof :
forall (W Snr Sy Y G V : Type) (m : link W Snr Sy Y G V) (w : W) (snrs : list Snr) (send_max err_min : Z) (send_chunk : option Z) (p q : Z),
    calls_end m -> (0 < num_bits_symbol m)%nat -> (0 < nb_tx m)%nat -> 0 < p -> 0 < q ->
    exists result, result <> Err OutOfFuel /\
      forall fuel, (Z.to_nat send_max < fuel)%nat -> link_performance fuel m w snrs send_max err_min send_chunk p q = result.
Proof.
  intros W Snr Sy Y G V m w snrs smax emin sc p q He Hb Ht Hp Hq. exists (link_performance (S (Z.to_nat smax)) m w snrs smax emin sc p q).
  unfold link_performance. cbv zeta. set (n := round_chunk _ _ _ _). assert (Hn : 0 < n) by (apply round_chunk_facts; nia).
  assert (H : snr_loop (S (Z.to_nat smax)) m smax emin n w snrs <> Err OutOfFuel) by (apply snr_loop_ends; [exact He|exact Hn|lia]).
  split; [exact H|]. intros fuel Hf. apply snr_loop_fuel; [lia|exact H].
Qed.

Lemma C56_no_transmission_proof :
forall (W Snr Sy Y G V : Type) (m : link W Snr Sy Y G V) (w w1 : W) (s : Snr) (snrs : list Snr) (send_max err_min : Z) (send_chunk : option Z) (p q : Z) fuel,
    l_set_snr m w s = Ok w1 -> send_max <= 0 \/ err_min <= 0 ->
    link_performance (S fuel) m w (s :: snrs) send_max err_min send_chunk p q = Err ZeroDivisionError.
Proof.
  intros W Snr Sy Y G V m w w1 s snrs smax emin sc p q fuel E H. unfold link_performance. cbv zeta. cbn [snr_loop]. rewrite E. cbn [bind send_loop].
  replace ((0 <? smax) && (0 <? emin)) with false; [reflexivity|]. symmetry. apply andb_false_iff. rewrite !Z.ltb_ge. tauto.
Qed.

Lemma skipn_twice {A} : forall a b (l : list A), skipn a (skipn b l) = skipn (b + a) l.
Proof. intros a b. induction b as [|b IH]; intros l; [reflexivity|]. destruct l as [|x l]; [destruct a; reflexivity|]. cbn [skipn Nat.add]. apply IH. Qed.
Lemma skipn_of_seq : forall k a n, skipn k (seq a n) = seq (a + k) (n - k).
Proof. induction k as [|k IH]; intros a n; [rewrite Nat.add_0_r, Nat.sub_0_r; reflexivity|]. destruct n as [|n]; [reflexivity|]. cbn [seq skipn]. rewrite IH. f_equal; lia. Qed.
Lemma foldM_place {V} (size n : nat) (f : list V -> nat -> res (list V)) (rs : nat -> list V) (tail : list V) : (forall i, (i < n)%nat -> length (rs i) = size) ->
  (forall buf i, (i < n)%nat -> f buf i = assign_slice buf (size * i) (size * (i + 1)) (rs i)) ->
  forall k i buf, (i + k = n)%nat -> (size * n + length tail = length buf)%nat -> skipn (size * n) buf = tail -> firstn (size * i) buf = concat (map rs (seq 0 i)) ->
  foldM f (seq i k) buf = Ok (concat (map rs (seq 0 n)) ++ tail).
Proof.
  intros Hrs Hf k. induction k as [|k IH]; intros i buf Hik HL Ht Hpre.
  - cbn [seq foldM]. f_equal. rewrite <- (firstn_skipn (size * n) buf). replace i with n in Hpre by lia. rewrite Hpre, Ht. reflexivity.
  - cbn [seq foldM]. rewrite Hf by lia. assert (HL2 : (size * (i + 1) <= size * n)%nat) by (apply Nat.mul_le_mono_l; lia). rewrite assign_slice_ok; [|nia|lia|rewrite Hrs by lia; nia]. cbn [bind].
    assert (HF : length (firstn (size * i) buf) = (size * i)%nat) by (apply firstn_length_le; nia). assert (HR : length (rs i) = size) by (apply Hrs; lia).
    apply IH; [lia| | |].
    + rewrite !app_length, HF, HR, skipn_length. nia.
    + rewrite app_assoc, skipn_app. rewrite app_length, HF, HR. rewrite skipn_all2 by (rewrite app_length, HF, HR; nia). cbn [app]. rewrite skipn_twice. rewrite <- Ht. f_equal. nia.
    + rewrite app_assoc, firstn_app. rewrite app_length, HF, HR. replace (size * S i - (size * i + size))%nat with 0%nat by nia. cbn [firstn]. rewrite app_nil_r. rewrite firstn_all2 by (rewrite app_length, HF, HR; nia).
      rewrite Hpre. rewrite seq_S, map_app, concat_app. cbn [map concat Nat.add]. rewrite app_nil_r. reflexivity.
Qed.

Lemma C56_transmission_proof :
(* one transmission: on a SISO channel the decoder gets what the receiver returns; on a MIMO channel the outputs of the receiver for
     the successive received vectors, in order, followed by uninitialised values if they do not fill ceil(len(msg) / rate) *)
  forall (W Snr Sy Y G V : Type) (m : link W Snr Sy Y G V) (w w1 w2 w3 : W) (n : nat) (msg : list Z) (symbs : list Sy) (out : list Y) (gains : list G),
    l_choice m w n = (msg, w1) -> l_modulate m w1 msg = Ok (symbs, w2) -> l_propagate m w2 symbs = Ok (out, gains, w3) ->
    let size := (nb_tx m * num_bits_symbol m)%nat in
    let decoded_from received := (d <- l_decoder m w3 out gains received size ;; Ok (msg, fst d, snd d)) in
    (is_mimo m = false -> forall received, l_receive m w3 out gains = Ok received -> transmit m w n = decoded_from received) /\
    (is_mimo m = true -> length gains = length out -> (size * length out <= l_received_len m (Z.of_nat (length msg)))%nat ->
     forall rs : nat -> list V, (forall i y h, nth_error out i = Some y -> nth_error gains i = Some h -> l_receive1 m w3 y h = Ok (rs i) /\ length (rs i) = size) ->
       transmit m w n = decoded_from (concat (map rs (seq 0 (length out))) ++ map (l_empty m) (seq (size * length out) (l_received_len m (Z.of_nat (length msg)) - size * length out)))).
Proof.
  intros W Snr Sy Y G V m w w1 w2 w3 n msg symbs out gains E1 E2 E3 size dec. split.
  - intros Hm received E4. unfold transmit, dec. rewrite E1, E2. cbn [bind]. rewrite E3. cbn [bind]. rewrite Hm, E4. cbn [bind]. fold size. destruct (l_decoder m w3 out gains received size) as [[d w4]|]; reflexivity.
  - intros Hm HG HL rs Hrs. unfold transmit, dec. rewrite E1, E2. cbn [bind]. rewrite E3. cbn [bind]. rewrite Hm. unfold receive_mimo. fold size. set (len := l_received_len m (Z.of_nat (length msg))) in *.
    assert (HR : forall i, (i < length out)%nat -> exists y h, nth_error out i = Some y /\ nth_error gains i = Some h /\ l_receive1 m w3 y h = Ok (rs i) /\ length (rs i) = size).
    { intros i Hi. destruct (nth_error out i) as [y|] eqn:Ey; [|apply nth_error_None in Ey; lia]. destruct (nth_error gains i) as [h|] eqn:Eh; [|apply nth_error_None in Eh; lia]. exists y, h. destruct (Hrs i y h Ey Eh). repeat split; assumption. }
    rewrite (foldM_place size (length out) _ rs (map (l_empty m) (seq (size * length out) (len - size * length out)))).
    + cbn [bind]. destruct (l_decoder m w3 out gains _ size) as [[d w4]|]; reflexivity.
    + intros i Hi. destruct (HR i Hi) as (y & h & _ & _ & _ & L). exact L.
    + intros buf i Hi. destruct (HR i Hi) as (y & h & Ey & Eh & Er & _).
      assert (PG : forall (A : Type) (l : list A) x, nth_error l i = Some x -> (i < length l)%nat -> py_get l (Z.of_nat i) = Ok x). { intros A l x Hx Hl. unfold py_get, py_idx. replace (0 <=? Z.of_nat i) with true by (symmetry; apply Z.leb_le; lia). replace (Z.of_nat i <? Z.of_nat (length l)) with true by (symmetry; apply Z.ltb_lt; lia). cbn [andb bind]. rewrite Nat2Z.id, Hx. reflexivity. }
      rewrite (PG _ _ y Ey Hi), (PG _ _ h Eh ltac:(lia)). cbn [bind]. rewrite Er. reflexivity.
    + lia.
    + rewrite !map_length, !seq_length. lia.
    + rewrite skipn_map. rewrite skipn_of_seq. reflexivity.
    + rewrite Nat.mul_0_r. reflexivity.
Qed.

Section Chunks.
Lemma combine_skipn {A B} n : forall (a : list A) (b : list B), combine (skipn n a) (skipn n b) = skipn n (combine a b).
Proof. induction n as [|n IH]; intros [|x a] [|y b]; cbn [skipn combine]; try reflexivity. - destruct (skipn n a); reflexivity. - apply IH. Qed.
Lemma combine_slice {A B} (a : list A) (b : list B) i j : combine (slice a i j) (slice b i j) = slice (combine a b) i j.
Proof. unfold slice. rewrite <- combine_skipn. rewrite <- combine_firstn. reflexivity. Qed.
Lemma bit_errors_sum a b : bit_errors a b = Zsum (map (fun p => if fst p =? snd p then 0 else 1) (combine a b)).
Proof.
  unfold bit_errors. induction (combine a b) as [|[x y] l IH]; [reflexivity|]. cbn [filter map]. rewrite Zsum_cons. cbn [fst snd]. destruct (x =? y); cbn [negb length]; lia.
Qed.
Lemma chunks_sum (l : list Z) c : forall k, Zsum (map (fun i => Zsum (slice l (c * i) (c * (i + 1)))) (seq 0 k)) = Zsum (firstn (c * k) l).
Proof.
  induction k as [|k IH]; [rewrite Nat.mul_0_r; reflexivity|]. rewrite seq_S, map_app, Zsum_app, IH. cbn [map]. rewrite Zsum_cons. cbn [Nat.add].
  change (Zsum []) with 0. rewrite Z.add_0_r. rewrite <- Zsum_app. f_equal. unfold slice. replace (c * (k + 1) - c * k)%nat with c by lia. replace (c * S k)%nat with (c * k + c)%nat by lia.
  generalize (c * k)%nat as n. clear. intros n. revert l. induction n as [|n IH]; intros [|x l]; cbn [firstn skipn Nat.add app]; try reflexivity; [rewrite firstn_nil; reflexivity|]. f_equal. apply IH.
Qed.
Lemma chunk_errors_total chunk ncps msg dec es : bits msg -> bits dec -> length msg = (chunk * ncps)%nat -> (chunk * ncps <= length dec)%nat ->
  chunk_errors chunk ncps msg dec = Ok es -> Zsum es = bit_errors msg dec.
Proof.
  intros Hm Hd Lm Ld E. unfold chunk_errors in E.
  assert (E' : mapM (fun i => xor_sum (slice msg (chunk * i) (chunk * (i + 1))) (slice dec (chunk * i) (chunk * (i + 1)))) (seq 0 ncps) =
               Ok (map (fun i => bit_errors (slice msg (chunk * i) (chunk * (i + 1))) (slice dec (chunk * i) (chunk * (i + 1)))) (seq 0 ncps))).
  { apply mapM_Ok. intros i Hi. apply in_seq in Hi. assert (chunk * (i + 1) <= chunk * ncps)%nat by (apply Nat.mul_le_mono_l; lia).
    apply xor_sum_bits; [apply bits_slice, Hm|apply bits_slice, Hd|]. rewrite !slice_length by lia. reflexivity. }
  rewrite E' in E. injection E as <-. rewrite (map_ext _ (fun i => Zsum (slice (map (fun p => if fst p =? snd p then 0 else 1) (combine msg dec)) (chunk * i) (chunk * (i + 1))))).
  2:{ intros i. rewrite bit_errors_sum, combine_slice. unfold slice. rewrite skipn_map, firstn_map. reflexivity. }
  rewrite chunks_sum, bit_errors_sum, firstn_all2; [reflexivity|]. rewrite map_length, combine_length. lia.
Qed.
Context {W Snr Sy Y G V : Type} (m : link W Snr Sy Y G V) (Hs : sane m).
Definition row_of (chunk ncps : nat) (r : Z * Z * Z) (t : list Z * list Z) : Prop := fst (fst r) = bit_errors (fst t) (snd t) /\ snd r = Z.of_nat ncps.
Lemma errs_rows chunk ncps tx tr : Forall2 (row_of chunk ncps) tx tr -> Zsum (map (fun r => fst (fst r)) tx) = total_errors tr /\
  map (fun r => fst (fst r)) tx = map (fun t => bit_errors (fst t) (snd t)) tr /\ map snd tx = repeat (Z.of_nat ncps) (length tr) /\ length tx = length tr.
Proof.
  induction 1 as [|r t tx tr [H1 H2] _ (I1 & I2 & I3 & I4)]; [repeat split; reflexivity|]. cbn [map length repeat]. rewrite Zsum_cons, total_errors_cons, I1, I2, I3, I4, H1, H2. repeat split; reflexivity.
Qed.
Lemma tx_loop_run err_min chunk ncps stop n : forall tx tr0 w tx' w', Forall2 (row_of chunk ncps) tx tr0 -> tx_loop n m err_min chunk ncps stop tx w = Ok (tx', w') ->
  exists tr, transmissions m (chunk * ncps) w tr w' /\ Forall2 (row_of chunk ncps) tx' (tr0 ++ tr) /\ (length tr <= n)%nat /\
    ((length tr < n)%nat -> stop = true /\ err_min < total_errors (tr0 ++ tr)) /\
    (stop = true -> forall k, (k < length tr)%nat -> total_errors (tr0 ++ firstn k tr) <= err_min).
Proof.
  induction n as [|n IH]; intros tx tr0 w tx' w' HF E; cbn [tx_loop] in E.
  - injection E as <- <-. exists []. rewrite app_nil_r. split; [constructor|]. split; [exact HF|]. cbn [length]. repeat split; lia.
  - destruct (errs_rows _ _ _ _ HF) as (Es & _). rewrite Es in E. destruct (stop && (err_min <? total_errors tr0)) eqn:Est.
    + injection E as <- <-. exists []. rewrite app_nil_r. apply andb_true_iff in Est. destruct Est as [-> Est]. apply Z.ltb_lt in Est. split; [constructor|]. split; [exact HF|].
      cbn [length]. split; [lia|]. split; [tauto|]. lia.
    + destruct (transmit m w (chunk * ncps)) as [[[msg dec] w1]|] eqn:Et; cbn [bind] in E; [|discriminate E].
      destruct (transmit_facts m Hs _ _ _ _ _ Et) as (F1 & F2 & F3 & F4).
      destruct (chunk_errors chunk ncps msg dec) as [es|] eqn:Ec; cbn [bind] in E; [|discriminate E].
      assert (HF' : Forall2 (row_of chunk ncps) (tx ++ [(Zsum es, Zsum (map (fun e : Z => if 0 <? e then 1 else 0) es), Z.of_nat ncps)]) (tr0 ++ [(msg, dec)])).
      { apply Forall2_app; [exact HF|]. constructor; [|constructor]. split; [|reflexivity]. exact (chunk_errors_total _ _ _ _ _ F2 F3 F1 F4 Ec). }
      destruct (IH _ _ _ _ _ HF' E) as (tr & T1 & T2 & T3 & T4 & T5).
      exists ((msg, dec) :: tr). rewrite <- app_assoc in T2, T4. split; [econstructor; eassumption|]. split; [exact T2|]. cbn [length]. split; [lia|]. split; [intros H; apply T4; lia|].
      intros Hst [|k] Hk; cbn [firstn]; [|specialize (T5 Hst k ltac:(lia)); rewrite <- app_assoc in T5; exact T5].
      rewrite app_nil_r. rewrite Hst in Est. apply Z.ltb_ge in Est. exact Est.
Qed.
End Chunks.

Lemma C57_metrics_proof :
forall (W Snr Sy Y G V : Type) (m : link W Snr Sy Y G V) (w : W) (snrs : list Snr) (tx_max : nat) (err_min : Z) (send_chunk : option Z) (p q : Z) (ncps : nat) (stop : bool) rows,
    sane m -> (0 < num_bits_symbol m)%nat -> (0 < nb_tx m)%nat -> 0 < p -> 0 < q ->
    link_performance_full_metrics m w snrs tx_max err_min send_chunk p q ncps stop = Ok rows ->
    let n := round_chunk (Z.of_nat (num_bits_symbol m) * Z.of_nat (nb_tx m)) p q (match send_chunk with Some c => c | None => err_min end) in
    let errors := fun tr : list (list Z * list Z) => map (fun t => bit_errors (fst t) (snd t)) tr in
    let row := fun tr : list (list Z * list Z) =>
      {| BER := Some (total_errors tr, Z.of_nat (length tr) * n);
         BE := errors tr ++ repeat 0 (tx_max - length tr);
         CE := map (fun e => if 0 <? e then 1 else 0) (errors tr) ++ repeat 0 (tx_max - length tr);
         NC := repeat (Z.of_nat ncps) (length tr) ++ repeat 0 (tx_max - length tr) |} in
    let zero := {| BER := None; BE := repeat 0 tx_max; CE := repeat 0 tx_max; NC := repeat 0 tx_max |} in
    exists runs, simulated m (Z.to_nat n * ncps) w snrs runs /\ (length runs <= length snrs)%nat /\ (snrs <> [] -> runs <> []) /\
      rows = map row runs ++ repeat zero (length snrs - length runs) /\
      (* every simulated SNR: tx_max transmissions, fewer only after more than err_min errors *)
      (forall tr, In tr runs -> (length tr <= tx_max)%nat /\ ((length tr < tx_max)%nat -> stop = true /\ err_min < total_errors tr) /\
         (stop = true -> forall k, (k < length tr)%nat -> total_errors (firstn k tr) <= err_min)) /\
      (forall i tr, nth_error runs i = Some tr -> (S i < length snrs)%nat -> (length runs = S i <-> total_errors tr < err_min)).
Proof.
  intros W Snr Sy Y G V m w snrs tx_max emin sc p q ncps stop rows Hs Hb Ht Hp Hq E n errors row zero. unfold link_performance_full_metrics in E. fold n in E.
  assert (Hn : 0 < n) by (apply round_chunk_facts; nia). revert w rows E. induction snrs as [|s rest IH]; intros w rows E; cbn [snr_loop_full] in E.
  - injection E as <-. exists []. split; [constructor|]. split; [cbn; lia|]. split; [congruence|]. split; [reflexivity|]. split; [intros tr []|].
    intros [|i] tr H; discriminate H.
  - destruct (l_set_snr m w s) as [w1|] eqn:E1; cbn [bind] in E; [|discriminate E].
    destruct (tx_loop tx_max m emin (Z.to_nat n) ncps stop [] w1) as [[tx w2]|] eqn:E2; cbn [bind] in E; [|discriminate E].
    destruct (tx_loop_run m Hs _ _ _ _ _ _ [] _ _ _ (Forall2_nil _) E2) as (tr & T1 & T2 & T3 & T4 & T5). cbn [app] in T2, T4, T5.
    destruct (errs_rows _ _ _ _ T2) as (R1 & R2 & R3 & R4). rewrite Zsum_pad, R1 in E.
    set (r0 := {| BER := _; BE := _; CE := _; NC := _ |}) in E.
    assert (Er : r0 = row tr).
    { unfold r0, row, errors, pad_row. rewrite R2, R3, R4, Z2Nat.id, map_app, map_length, repeat_length by lia. do 2 f_equal. generalize (tx_max - length tr)%nat as N. clear. intros N. induction N as [|N IH]; [reflexivity|]. cbn [repeat map]. f_equal. exact IH. }
    rewrite Er in E. clear r0 Er.
    assert (Htr : (length tr <= tx_max)%nat /\ ((length tr < tx_max)%nat -> stop = true /\ emin < total_errors tr) /\
         (stop = true -> forall k, (k < length tr)%nat -> total_errors (firstn k tr) <= emin)) by tauto.
    fold zero in E. destruct (total_errors tr <? emin) eqn:E3.
    + injection E as <-. apply Z.ltb_lt in E3. exists [tr]. split; [eapply next_snr; [exact E1|exact T1|constructor]|]. cbn [length map app].
      split; [lia|]. split; [discriminate|]. split; [f_equal; f_equal; lia|]. split; [intros t [<-|[]]; exact Htr|].
      intros [|i] t H; cbn in H; [injection H as <-; tauto|destruct i; discriminate H].
    + apply Z.ltb_ge in E3. destruct (snr_loop_full m tx_max emin (Z.to_nat n) ncps stop w2 rest) as [more|] eqn:E4; cbn [bind] in E; [|discriminate E]. injection E as <-.
      destruct (IH _ _ E4) as (runs & Q1 & Q2 & Q3 & Q4 & Q5 & Q6). exists (tr :: runs). split; [eapply next_snr; eassumption|]. cbn [length map app].
      split; [lia|]. split; [discriminate|]. split; [rewrite Q4; reflexivity|]. split; [intros t [<-|Hin]; [exact Htr|apply Q5, Hin]|].
      intros [|i] t H Hi; cbn in H.
      * injection H as <-. destruct rest as [|r0 rest]; [cbn in Hi; lia|]. destruct runs; [exfalso; apply Q3; [discriminate|reflexivity]|]. cbn [length]. split; lia.
      * rewrite <- (Q6 i t H) by lia. lia.
Qed.

Lemma C57_ratio_proof :
forall (W Snr Sy Y G V : Type) (m : link W Snr Sy Y G V) (w : W) (snrs : list Snr) (tx_max : nat) (err_min : Z) (send_chunk : option Z) (p q : Z) (stop : bool) rows,
    sane m -> (0 < num_bits_symbol m)%nat -> (0 < nb_tx m)%nat -> 0 < p -> 0 < q -> (0 < tx_max)%nat -> 0 <= err_min ->
    link_performance_full_metrics m w snrs tx_max err_min send_chunk p q 1 stop = Ok rows ->
    forall i r errors sent, nth_error rows i = Some r -> BER r = Some (errors, sent) -> 0 <= errors <= sent /\ 0 < sent /\ errors = Zsum (BE r).
Proof.
  intros W Snr Sy Y G V m w snrs tx_max emin sc p q stop rows Hs Hb Ht Hp Hq Htx Hem E i r errors sent Hi HB.
  destruct (C57_metrics_proof _ _ _ _ _ _ m w snrs tx_max emin sc p q 1 stop rows Hs Hb Ht Hp Hq E) as (runs & R1 & R2 & _ & R4 & R5 & _).
  set (n := round_chunk _ _ _ _) in *. assert (Hn : 0 < n) by (apply round_chunk_facts; nia). subst rows.
  assert (Hin : exists tr, In tr runs /\ r = {| BER := Some (total_errors tr, Z.of_nat (length tr) * n);
         BE := map (fun t => bit_errors (fst t) (snd t)) tr ++ repeat 0 (tx_max - length tr);
         CE := map (fun e => if 0 <? e then 1 else 0) (map (fun t => bit_errors (fst t) (snd t)) tr) ++ repeat 0 (tx_max - length tr);
         NC := repeat (Z.of_nat 1) (length tr) ++ repeat 0 (tx_max - length tr) |}).
  { apply nth_error_In, in_app_or in Hi. destruct Hi as [Hi|Hi]; [apply in_map_iff in Hi; destruct Hi as (tr & <- & Hi); exists tr; split; [exact Hi|reflexivity]|].
    apply repeat_spec in Hi. subst r. discriminate HB. }
  destruct Hin as (tr & Hin & ->). cbn [BER] in HB. injection HB as <- <-. cbn [BE]. destruct (R5 tr Hin) as (Q1 & Q2 & Q3).
  assert (Hlen : (0 < length tr)%nat). { destruct tr as [|t tr]; [|cbn; lia]. destruct (Q2 Htx) as [_ Q]. cbn in Q. lia. }
  assert (Hb' : 0 <= total_errors tr <= Z.of_nat (length tr) * n).
  { assert (Hall : exists w1 w2, transmissions m (Z.to_nat n * 1) w1 tr w2).
    { clear - R1 Hin. revert Hin. induction R1 as [|w s snrs w1 tr' w2 runs H1 H2 H3 IH]; intros Hin; [destruct Hin|]. destruct Hin as [<-|Hin]; [exists w1, w2; exact H2|apply IH, Hin]. }
    destruct Hall as (w1 & w2 & HT). rewrite Nat.mul_1_r in HT. clear - HT Hn Hs. induction HT as [|w msg dec w1 l w2 Et _ IH]; [cbn; lia|].
    rewrite total_errors_cons. cbn [fst snd length]. destruct (transmit_facts m Hs _ _ _ _ _ Et) as (F1 & _). pose proof (bit_errors_bounds msg dec). lia. }
  split; [exact Hb'|]. split; [clear - Hlen Hn; nia|]. rewrite Zsum_app, Zsum_repeat0. unfold total_errors. lia.
Qed.

Lemma C57_bit_error_ratio_refuted_proof :
(* with two chunks per send, "BER" is 2 when every bit is wrong, and CE is 1 although two chunks are wrong *)
  exists (m : link nat nat Z Z Z Z) (r : metrics), sane m /\ num_bits_symbol m = 1%nat /\ nb_tx m = 1%nat /\
    link_performance_full_metrics m 0%nat [0%nat] 1 0 (Some 3) 1 1 2 false = Ok [r] /\
    BER r = Some (6, 3) /\ BE r = [6] /\ CE r = [1] /\ NC r = [2].
Proof.
  exists {| num_bits_symbol := 1; nb_tx := 1; is_mimo := false; l_set_snr := fun w _ => Ok w; l_choice := fun w n => (repeat 0 n, w); l_modulate := fun w l => Ok (l, w);
     l_propagate := fun w l => Ok (l, [], w); l_receive := fun _ l _ => Ok l; l_receive1 := fun _ _ _ => Ok [];
     l_decoder := fun w _ _ l _ => Ok (map (fun _ => 1) l, w); l_received_len := Z.to_nat; l_empty := fun _ => 0 |}.
  exists {| BER := Some (6, 3); BE := [6]; CE := [1]; NC := [2] |}. split.
  - split.
    + intros w n. cbn. split; [apply repeat_length|]. apply Forall_forall. intros x Hx. apply repeat_spec in Hx. left. exact Hx.
    + intros w n msg dec w' E. cbn in E. injection E as <- <- <-. rewrite map_length, repeat_length. split; [|lia]. apply Forall_map, Forall_forall. intros; right; reflexivity.
  - split; [reflexivity|]. split; [reflexivity|]. split; [vm_compute; reflexivity|]. repeat split; reflexivity.
Qed.

Lemma C58_idd_proof :
forall (Y H B : Type) (detector : Y -> H -> list R -> res (list R * list R)) (decoder : list R -> res (list R * list R)) (decision : list R -> res (list B))
         (n_it : nat) (ys : list Y) (hs : list H) (a_priori : list R) (bits_per_send : nat) result caller,
    (* in-place changes keep the shape of an array, and the detector returns bits_per_send values *)
    (forall y h v d v', detector y h v = Ok (d, v') -> length d = bits_per_send /\ length v' = length v) ->
    (forall x d x', decoder x = Ok (d, x') -> length x' = length x) ->
    length a_priori = (length hs * bits_per_send)%nat ->
    idd_decode Rplus Rminus detector decoder decision n_it ys hs a_priori bits_per_send = Ok (result, caller) ->
    caller = a_priori /\ (1 <= n_it)%nat /\
    exists x z : nat -> list R, x 0%nat = a_priori /\
      (forall k, (k < n_it)%nat -> idd_round Rminus detector decoder ys hs bits_per_send (x k) (z k) (x (k + 1)%nat)) /\
      decision (z (n_it - 1)%nat) = Ok result.
Proof.
  intros Y H B detector decoder decision n_it ys hs ap b result caller Hdet Hdec HL E.
  assert (Hinv : forall x y, (x - y + y = x)%R) by (intros; ring).
  destruct (idd_decode_facts Rplus Rminus detector decoder decision Hinv b Hdet Hdec ys hs _ eq_refl n_it ap result caller HL E) as (H1 & x & z & X1 & X2 & X3 & X4).
  split; [exact H1|]. split; [exact X3|]. exists x, z. split; [exact X1|]. split; [exact X2|exact X4].
Qed.

Lemma C58_no_iteration_proof :
forall (Y H B : Type) (detector : Y -> H -> list R -> res (list R * list R)) (decoder : list R -> res (list R * list R)) (decision : list R -> res (list B))
         (ys : list Y) (hs : list H) (a_priori : list R) (bits_per_send : nat),
    idd_decode Rplus Rminus detector decoder decision 0 ys hs a_priori bits_per_send = Err UnboundLocalError.
Proof.
  intros. apply idd_zero.
Qed.

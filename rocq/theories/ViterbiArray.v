(* The arrays of viterbi_decode hold the decisions of the last tb_depth - 1 steps, and the traceback copies
   the survivor of the best state into decoded_bits. *)
From Verif Require Import Base UtilModel UtilProofs TrellisModel TrellisSpec TrellisProofs ConvProofs ViterbiModel ViterbiProofs.

Lemma foldM_inv {B} (P : nat -> B -> Prop) (f : B -> nat -> res B) N : forall a b, P a b ->
  (forall i b, (a <= i < a + N)%nat -> P i b -> exists b', f b i = Ok b' /\ P (S i) b') ->
  exists b', foldM f (seq a N) b = Ok b' /\ P (a + N)%nat b'.
Proof.
  induction N as [|N IH]; intros a b Hb Hf.
  - exists b. rewrite Nat.add_0_r. split; [reflexivity|exact Hb].
  - destruct (Hf a b ltac:(lia) Hb) as (b1 & E1 & H1). destruct (IH (S a) b1 H1) as (b2 & E2 & H2).
    { intros i c Hi Hc. apply Hf; [lia|exact Hc]. }
    exists b2. cbn [seq foldM]. rewrite E1. cbn [bind]. rewrite E2. split; [reflexivity|]. replace (a + S N)%nat with (S a + N)%nat by lia. exact H2.
Qed.

Lemma py_set_ok {A} (l : list A) i a : (i < length l)%nat -> py_set l (Z.of_nat i) a = Ok (upd l i a).
Proof.
  intros H. unfold py_set, py_idx. destruct ((0 <=? Z.of_nat i) && (Z.of_nat i <? Z.of_nat (length l))) eqn:E; [rewrite Nat2Z.id; reflexivity|].
  apply andb_false_iff in E. destruct E as [E|E]; [apply Z.leb_gt in E|apply Z.ltb_ge in E]; lia.
Qed.

Lemma slice_assign_nth {A} (l : list A) lo len vals : length vals = len -> (lo + len <= length l)%nat ->
  exists l', slice_assign l lo (lo + len) vals = Ok l' /\ length l' = length l /\
    forall i d, nth i l' d = if (lo <=? i)%nat && (i <? lo + len)%nat then nth (i - lo) vals d else nth i l d.
Proof.
  intros Hv Hl. unfold slice_assign. replace (Nat.min (lo + len) (length l) - lo)%nat with len by lia. rewrite Hv, Nat.eqb_refl.
  eexists. split; [reflexivity|]. split.
  - rewrite !app_length, firstn_length, skipn_length. lia.
  - intros i d. destruct (Nat.leb_spec lo i) as [H1|H1]; cbn [andb].
    + rewrite app_nth2; rewrite firstn_length; [|lia]. replace (Nat.min lo (length l)) with lo by lia.
      destruct (Nat.ltb_spec i (lo + len)) as [H2|H2].
      * rewrite app_nth1 by lia. reflexivity.
      * rewrite app_nth2 by lia. rewrite Hv, skipn_nth. f_equal. lia.
    + rewrite app_nth1 by (rewrite firstn_length; lia). apply firstn_nth. exact H1.
Qed.

Lemma mat_set_ok (m : list (list Z)) r c v : (r < length m)%nat -> (c < length (nth r m []))%nat ->
  mat_set m r c v = Ok (upd m r (upd (nth r m []) c v)).
Proof. intros H1 H2. unfold mat_set. rewrite (py_get_ok m r [] H1). cbn [bind]. rewrite py_set_ok by exact H2. cbn [bind]. apply py_set_ok. exact H1. Qed.

Section Arrays.
Context {A X : Type} (add : A -> A -> A) (leb : A -> A -> bool) (zero : A).
Hypothesis leb_refl : forall a, leb a a = true.
Hypothesis leb_trans : forall a b c, leb a b = true -> leb b c = true -> leb a c = true.
Hypothesis leb_total : forall a b, leb a b = true \/ leb b a = true.
Context (tr : Trellis) (d : dtype A X) (bm : list X -> list Z -> A) (rs : nat -> list X).
Hypothesis Hval : valid_trellis tr.
Hypothesis Hin : forall s, (s < number_states tr)%nat -> length (where_list tr (Z.of_nat s)) = number_inputs tr.
Hypothesis HkM : (tr_k tr <= tr_M tr)%nat.
Hypothesis Hbm : forall r i, length r = tr_n tr -> length i = tr_n tr -> bits i -> d_metric d r i = Ok (bm r i).
Local Notation nx := (entry (tr_next tr)).
Local Notation ox := (entry (tr_out tr)).
Local Notation k := (tr_k tr).
Local Notation n := (tr_n tr).
Local Notation NS := (number_states tr).
Local Notation NI := (number_inputs tr).
Local Notation cand := (cand add tr bm).
Local Notation sel := (sel add leb tr bm).
Local Notation met := (met add leb tr bm).
Local Notation pml := (pml add leb zero tr bm rs).
Local Notation dec := (dec add leb zero tr bm rs).
Local Notation surv := (surv add leb zero tr bm rs).
Local Notation best := (best add leb zero tr bm rs).

Lemma NI_le : (NI <= NS)%nat.
Proof. unfold number_inputs, number_states. apply Nat.pow_le_mono_r; lia. Qed.

Definition sized (sc : scratch A) := length (pmetrics sc) = NI /\ length (index_array sc) = NS.

Lemma acs_state_ok r pm0 sc s : length r = n -> length pm0 = NS -> sized sc -> (s < NS)%nat ->
  exists sc', acs_state add leb d tr r pm0 sc s = Ok (sc', met pm0 r s, fst (sel pm0 r s), snd (sel pm0 r s)) /\ sized sc'.
Proof.
  intros Hr Hpm [S1 S2] Hs. unfold acs_state. cbv zeta. set (found := where_list tr (Z.of_nat s)). pose proof NI_le as HN. pose proof (Hin s Hs) as Hf. fold found in Hf.
  assert (length (index_array sc) <? length found = false)%nat as -> by (apply Nat.ltb_ge; lia).
  set (ia := found ++ skipn (length found) (index_array sc)). pose proof (NS_Z tr) as HZ.
  destruct (foldM_inv (fun m pms => length pms = NI /\ forall i, (i < m)%nat -> nth i pms None = nth i (cand pm0 r s) None)
    (fun pms (i : nat) =>
           prev <- py_get ia (Z.of_nat i) ;;
           i_codeword <- table_get (tr_out tr) (fst prev) (snd prev) ;;
           i_codeword_array <- dec2bitarray i_codeword (tr_n tr) ;;
           branch_metric <- d_metric d r i_codeword_array ;;
           p <- py_get pm0 (fst prev) ;;
           py_set pms (Z.of_nat i) (oadd add p branch_metric)) (length found) 0 (pmetrics sc)) as (pms & E & L & H).
  { split; [exact S1|intros i Hi; lia]. }
  { intros i pms Hi [L H]. rewrite (py_get_ok ia i (0, 0)) by (unfold ia; rewrite app_length; lia). cbn [bind].
    unfold ia. rewrite app_nth1 by lia. assert (Hp : In (nth i found (0, 0)) found) by (apply nth_In; lia).
    destruct (nth i found (0, 0)) as [p u] eqn:Ep. cbn [fst snd]. apply in_where in Hp. destruct Hp as (P1 & P2 & P3).
    destruct (proj2 (proj2 Hval) p u P1 P2) as (_ & _ & -> & O2). cbn [bind].
    unfold dec2bitarray; rewrite (decimal2bitarray_ok (ox p u) n) by lia. cbn [bind].
    rewrite Hbm by (try exact Hr; try apply bits_msb_length; apply bits_msb_bits). cbn [bind].
    assert (py_get pm0 p = Ok (nth (Z.to_nat p) pm0 None)) as -> by (rewrite <- (py_get_ok pm0 (Z.to_nat p) None) by lia; f_equal; lia). cbn [bind].
    rewrite py_set_ok by lia. eexists. split; [reflexivity|]. split; [rewrite upd_length; exact L|].
    intros j Hj. destruct (Nat.eq_dec j i) as [->|Hne].
    - rewrite nth_upd_eq by lia. unfold ViterbiProofs.cand. fold found. rewrite (nth_map_lt _ found i (0, 0)) by lia. rewrite Ep. reflexivity.
    - rewrite nth_upd_neq by lia. apply H. lia. }
  rewrite E. cbn [bind]. rewrite Nat.add_0_l in H.
  assert (pms = cand pm0 r s) as ->.
  { apply (nth_ext _ _ None None); [rewrite L, (cand_length add tr bm Hin) by exact Hs; reflexivity|]. intros i Hi. apply H. lia. }
  destruct (argmin_spec leb leb_refl leb_trans leb_total (cand pm0 r s)) as [Ha _]; [apply (cand_nonempty add tr bm Hin); exact Hs|].
  rewrite (cand_length add tr bm Hin) in Ha by exact Hs.
  rewrite (py_get_ok ia _ (0, 0)) by (unfold ia; rewrite app_length; lia). cbn [bind]. unfold ia at 2 3. rewrite app_nth1 by lia.
  eexists. split; [reflexivity|]. split; [exact L|]. cbn [index_array]. unfold ia. rewrite app_length, skipn_length. lia.
Qed.

Definition mat (m : list (list Z)) (tb : nat) := length m = NS /\ forall s, (s < NS)%nat -> length (nth s m []) = tb.

Lemma acs_loop_ok r pm0 c sc paths syms tb : length r = n -> length pm0 = NS -> sized sc -> mat paths tb -> mat syms tb -> (c < tb)%nat ->
  exists sc' paths' syms', acs_loop add leb d tr r pm0 c (sc, pm0, paths, syms) = Ok (sc', map (met pm0 r) (seq 0 NS), paths', syms') /\
    mat paths' tb /\ mat syms' tb /\
    forall s j, (s < NS)%nat -> nth j (nth s paths' []) 0 = (if (j =? c)%nat then fst (sel pm0 r s) else nth j (nth s paths []) 0) /\
                                nth j (nth s syms' []) 0 = (if (j =? c)%nat then snd (sel pm0 r s) else nth j (nth s syms []) 0).
Proof.
  intros Hr Hpm Hsc HP HS Hc. unfold acs_loop.
  destruct (foldM_inv (fun m st => let '(sc, pm1, paths', syms') := st in sized sc /\ length pm1 = NS /\ mat paths' tb /\ mat syms' tb /\
     (forall s, (s < m)%nat -> nth s pm1 None = met pm0 r s) /\
     forall s j, (s < NS)%nat -> nth j (nth s paths' []) 0 = (if (j =? c)%nat && (s <? m)%nat then fst (sel pm0 r s) else nth j (nth s paths []) 0) /\
                                 nth j (nth s syms' []) 0 = (if (j =? c)%nat && (s <? m)%nat then snd (sel pm0 r s) else nth j (nth s syms []) 0))
    (fun st state_num =>
    let '(sc, pm1, paths, syms) := st in
    e <- acs_state add leb d tr r pm0 sc state_num ;;
    let '(sc', metric, prev, inp) := e in
    pm1' <- py_set pm1 (Z.of_nat state_num) metric ;;
    paths' <- mat_set paths state_num c prev ;;
    syms' <- mat_set syms state_num c inp ;;
    Ok (sc', pm1', paths', syms')) NS 0 (sc, pm0, paths, syms)) as ([[[sc' pm1] paths'] syms'] & E & Hsc' & Hpm1 & HP' & HS' & Hm & Hps).
  { split; [exact Hsc|]. split; [exact Hpm|]. split; [exact HP|]. split; [exact HS|]. split; [intros s Hs; lia|].
    intros s j Hs. rewrite andb_false_r. split; reflexivity. }
  { intros i [[[sc1 pm1] p1] s1] Hi (I1 & I2 & [I3 I3'] & [I4 I4'] & I5 & I6).
    destruct (acs_state_ok r pm0 sc1 i Hr Hpm I1 ltac:(lia)) as (sc2 & E & Hsc2). rewrite E. cbn [bind].
    rewrite py_set_ok by lia. cbn [bind]. rewrite mat_set_ok by (rewrite ?I3'; lia). cbn [bind]. rewrite mat_set_ok by (rewrite ?I4'; lia). cbn [bind].
    eexists. split; [reflexivity|]. cbn iota beta. split; [exact Hsc2|]. split; [rewrite upd_length; exact I2|].
    split; [split; [rewrite upd_length; exact I3|]|split; [split; [rewrite upd_length; exact I4|]|split]].
    - intros s Hs. destruct (Nat.eq_dec s i) as [->|Hne]; [rewrite nth_upd_eq, upd_length by lia; apply I3'; lia|rewrite nth_upd_neq by lia; apply I3'; lia].
    - intros s Hs. destruct (Nat.eq_dec s i) as [->|Hne]; [rewrite nth_upd_eq, upd_length by lia; apply I4'; lia|rewrite nth_upd_neq by lia; apply I4'; lia].
    - intros s Hs. destruct (Nat.eq_dec s i) as [->|Hne]; [apply nth_upd_eq; lia|rewrite nth_upd_neq by lia; apply I5; lia].
    - intros s j Hs. destruct (I6 s j Hs) as [I6a I6b]. destruct (Nat.eq_dec s i) as [->|Hne].
      + rewrite !nth_upd_eq by lia. destruct (Nat.eq_dec j c) as [->|Hj].
        * rewrite !nth_upd_eq by (rewrite ?I3', ?I4'; lia). rewrite Nat.eqb_refl. assert (i <? S i = true)%nat as -> by (apply Nat.ltb_lt; lia). split; reflexivity.
        * rewrite !nth_upd_neq by lia. rewrite I6a, I6b. apply Nat.eqb_neq in Hj. rewrite Hj. split; reflexivity.
      + rewrite !nth_upd_neq by lia. rewrite I6a, I6b. assert (s <? S i = (s <? i))%nat as -> by lia. split; reflexivity. }
  rewrite Nat.add_0_l in *. exists sc', paths', syms'. rewrite E. split; [|split; [exact HP'|split; [exact HS'|]]].
  - do 4 f_equal. apply (nth_ext _ _ None None); [rewrite map_seq_length; exact Hpm1|]. intros s Hs. rewrite nth_map_seq by lia. apply Hm. lia.
  - intros s j Hs. destruct (Hps s j Hs) as [-> ->]. assert (s <? NS = true)%nat as -> by (apply Nat.ltb_lt; lia). rewrite andb_true_r. split; reflexivity.
Qed.

(* column j of the arrays holds the decisions of time m + j *)
Definition cols (paths syms : list (list Z)) (m J : nat) := forall s j, (s < NS)%nat -> (1 <= j <= J)%nat ->
  nth j (nth s paths []) 0 = fst (dec (m + j) s) /\ nth j (nth s syms []) 0 = snd (dec (m + j) s).

Lemma traceback_loop tb paths syms m count J : mat paths tb -> mat syms tb -> cols paths syms m J -> (J < tb)%nat -> (m + count = m * k)%nat -> forall s db,
  (s < NS)%nat -> ((m + J) * k <= length db)%nat ->
  exists s' db', foldM (fun st j =>
    let '(current_state, db) := st in
    srow <- py_get syms current_state ;; dec_symbol <- py_get srow (Z.of_nat j) ;;
    prow <- py_get paths current_state ;; previous_state <- py_get prow (Z.of_nat j) ;;
    bitarr <- dec2bitarray dec_symbol (tr_k tr) ;;
    db' <- slice_assign db (m + (j - 1) * tr_k tr + count) (m + j * tr_k tr + count) (map Some bitarr) ;;
    Ok (previous_state, db')) (rev (seq 1 J)) (Z.of_nat s, db) = Ok (s', db') /\ length db' = length db /\
    forall i, nth i db' None = if (m * k <=? i)%nat && (i <? (m + J) * k)%nat then Some (nth i (bitstream k (surv (m + J) s)) 0) else nth i db None.
Proof.
  intros HP HS. revert J. induction J as [|J IH]; intros HC HJ Hcount s db Hs Hdb.
  - exists (Z.of_nat s), db. split; [reflexivity|]. split; [reflexivity|]. intros i. rewrite Nat.add_0_r. destruct ((m * k <=? i)%nat && (i <? m * k)%nat) eqn:E; [lia|reflexivity].
  - rewrite seq_S, rev_app_distr. change (1 + J)%nat with (S J). cbn [rev app foldM]. destruct HP as [HP1 HP2], HS as [HS1 HS2].
    destruct (HC s (S J) Hs ltac:(lia)) as [C1 C2].
    rewrite (py_get_ok syms s [] ) by lia. cbn [bind]. rewrite (py_get_ok _ (S J) 0) by (rewrite HS2; lia). cbn [bind].
    rewrite (py_get_ok paths s []) by lia. cbn [bind]. rewrite (py_get_ok _ (S J) 0) by (rewrite HP2; lia). cbn [bind]. rewrite C1, C2.
    pose proof (dec_range add leb zero leb_refl leb_trans leb_total tr bm rs Hin (m + S J) s Hs) as (D1 & D2 & _).
    pose proof (proj1 Hval) as Hk.
    unfold dec2bitarray at 1. rewrite decimal2bitarray_ok by lia. cbn [bind].
    replace (m + (S J - 1) * k + count)%nat with ((m + J) * k)%nat by nia. replace (m + S J * k + count)%nat with ((m + J) * k + k)%nat by nia.
    destruct (slice_assign_nth db ((m + J) * k) k (map Some (bits_msb k (snd (dec (m + S J) s))))) as (db1 & E1 & L1 & N1).
    { rewrite map_length. apply bits_msb_length. } { nia. }
    rewrite E1. cbn [bind]. replace (fst (dec (m + S J) s)) with (Z.of_nat (Z.to_nat (fst (dec (m + S J) s)))) by lia.
    destruct (IH ltac:(intros s0 j0 Hs0 Hj0; apply HC; lia) ltac:(lia) Hcount (Z.to_nat (fst (dec (m + S J) s))) db1 ltac:(lia) ltac:(nia)) as (s' & db' & E & L & Nn).
    exists s', db'. rewrite E. split; [reflexivity|]. split; [lia|]. intros i. rewrite Nn, N1. replace (m + S J)%nat with (S (m + J)) by lia. cbn [ViterbiProofs.surv].
    rewrite bitstream_app.
    assert (HL : length (bitstream k (surv (m + J) (Z.to_nat (fst (dec (S (m + J)) s))))) = ((m + J) * k)%nat) by (rewrite bitstream_length, surv_length; reflexivity).
    destruct (Nat.leb_spec (m * k) i) as [G1|G1]; cbn [andb].
    + destruct (Nat.ltb_spec i ((m + J) * k)) as [G2|G2].
      * assert (i <? S (m + J) * k = true)%nat as -> by (apply Nat.ltb_lt; nia). rewrite app_nth1 by lia. replace (m + S J)%nat with (S (m + J)) by lia. reflexivity.
      * assert ((m + J) * k <=? i = true)%nat as -> by (apply Nat.leb_le; lia). cbn [andb].
        destruct (Nat.ltb_spec i ((m + J) * k + k)) as [G3|G3].
        -- assert (i <? S (m + J) * k = true)%nat as -> by (apply Nat.ltb_lt; nia). rewrite app_nth2 by lia. rewrite HL.
           unfold bitstream. cbn [map concat]. rewrite app_nil_r. replace (m + S J)%nat with (S (m + J)) by lia.
           rewrite (nth_map_lt Some _ _ 0) by (rewrite bits_msb_length; lia). reflexivity.
        -- assert (i <? S (m + J) * k = false)%nat as -> by (apply Nat.ltb_ge; nia). reflexivity.
    + assert ((m + J) * k <=? i = false)%nat as -> by (apply Nat.leb_gt; nia). reflexivity.
Qed.

Lemma shift_nth (m : list (list Z)) tb s j : mat m tb -> (s < NS)%nat -> (j + 1 < tb)%nat -> nth j (nth s (shift_cols m) []) 0 = nth (S j) (nth s m []) 0.
Proof.
  intros [H1 H2] Hs Hj. unfold shift_cols. rewrite (nth_map_lt _ m s []) by lia. pose proof (H2 s Hs) as HL. destruct (nth s m []) as [|x row]; [cbn in HL; lia|].
  cbn [tl]. rewrite app_nth1 by (cbn in HL; lia). reflexivity.
Qed.
Lemma shift_mat (m : list (list Z)) tb : (1 <= tb)%nat -> mat m tb -> mat (shift_cols m) tb.
Proof.
  intros Htb [H1 H2]. unfold shift_cols. split; [rewrite map_length; exact H1|]. intros s Hs. rewrite (nth_map_lt _ m s []) by lia. pose proof (H2 s Hs) as HL.
  destruct (nth s m []) as [|x row]; [cbn in HL; lia|]. cbn [tl]. rewrite app_length, skipn_length. cbn [length] in *. lia.
Qed.

(* ---------------------------------------------------------------- the main loop *)
Context (coded0 : list X) (L tb : nat) (pad : X) (garbage : nat -> scratch A).
Hypothesis Hg : forall t, sized (garbage t).
Hypothesis Htb : (2 <= tb)%nat.
Hypothesis Hlen : (L / k * n <= length coded0)%nat.
Hypothesis Hpad : d_pad d = Ok pad.
Hypothesis Hrs : forall t, (1 <= t)%nat -> rs t = if (t <=? L / k)%nat then slice coded0 ((t - 1) * n) (t * n) else repeat pad n.

(* the array coded_bits after step t *)
Definition coded_after (t : nat) : list X :=
  if (t <=? L / k)%nat || (L / k =? 0)%nat then coded0
  else firstn ((L / k - 1) * n) coded0 ++ repeat pad n ++ skipn (L / k * n) coded0.
Definition view_after (t : nat) : option nat :=
  let m := Nat.min t (L / k) in if (m =? 0)%nat then None else Some ((m - 1) * n)%nat.

Definition bit_after (t i : nat) : option Z :=
  if (tb <=? t + 1)%nat && (i <? t * k)%nat then let tau := Nat.min t (i / k + tb - 1) in Some (nth i (bitstream k (surv tau (best tau))) 0) else None.

Definition INV (D t : nat) (v : vstate A X) : Prop :=
  v_coded v = coded_after t /\ v_view v = view_after t /\ v_pm v = pml t /\ mat (v_paths v) tb /\ mat (v_syms v) tb /\
  v_tb v = Nat.min (t + 1) (tb - 1) /\ v_count v = ((t + 2 - tb) * (k - 1))%nat /\ cols (v_paths v) (v_syms v) (t + 1 - v_tb v) (v_tb v - 1) /\
  length (v_bits v) = D /\ forall i, nth i (v_bits v) None = bit_after t i.

Lemma rs_length t : (1 <= t)%nat -> length (rs t) = n.
Proof.
  intros Ht. rewrite Hrs by exact Ht. destruct (Nat.leb_spec t (L / k)) as [E|E]; [|apply repeat_length].
  rewrite slice_length by nia. nia.
Qed.

Lemma vstep_ok D t v : INV D t v -> ((t + 1) * k <= D)%nat -> exists v', vstep add leb d tr L tb garbage v (S t) = Ok v' /\ INV D (S t) v'.
Proof.
  intros (I1 & I2 & I3 & I4 & I5 & I6 & I7 & I8 & I9 & I10) HD. unfold vstep. pose proof (proj1 Hval) as Hk. pose proof (proj1 (proj2 Hval)) as Hn.
  assert (Hr : (if (S t <=? L / k)%nat then Ok (slice (v_coded v) ((S t - 1) * n) (S t * n), v_coded v, Some ((S t - 1) * n)%nat)
         else pad <- d_pad d ;;
              match v_view v with
              | Some s => let len := length (slice (v_coded v) s (s + n)) in
                          Ok (repeat pad len, firstn s (v_coded v) ++ repeat pad len ++ skipn (s + len) (v_coded v), Some s)
              | None => Ok (repeat pad n, v_coded v, None)
              end) = Ok (rs (S t), coded_after (S t), view_after (S t))).
  { rewrite Hrs by lia. rewrite I1, I2. unfold coded_after, view_after. destruct (Nat.leb_spec (S t) (L / k)) as [E|E].
    - assert (t <=? L / k = true)%nat as -> by (apply Nat.leb_le; lia). cbn [orb].
      replace (Nat.min (S t) (L / k)) with (S t) by lia. cbn [Nat.eqb]. reflexivity.
    - rewrite Hpad. cbn [bind orb]. replace (Nat.min (S t) (L / k)) with (L / k)%nat by lia. replace (Nat.min t (L / k)) with (L / k)%nat by lia.
      destruct (Nat.eqb_spec (L / k) 0) as [E0|E0].
      + rewrite orb_true_r. reflexivity.
      + cbn zeta. rewrite ?orb_false_r.
        assert (Hqn : ((L / k - 1) * n + n = L / k * n)%nat).
        { clear - E0. set (q := (L / k)%nat) in *. destruct q as [|q]; [lia|]. cbn [Nat.mul]. replace (S q - 1)%nat with q by lia. lia. }
        assert (HS : forall c : list X, length c = length coded0 -> length (slice c ((L / k - 1) * n) ((L / k - 1) * n + n)) = n).
        { intros c Hc. pose proof (Nat.div_mod L k ltac:(lia)). set (q := (L / k)%nat) in *. rewrite slice_length by (rewrite Hc; lia). lia. }
        destruct (Nat.leb_spec t (L / k)) as [E1|E1].
        * rewrite HS by reflexivity. do 3 f_equal. do 2 f_equal. f_equal. lia.
        * set (c := firstn ((L / k - 1) * n) coded0 ++ repeat pad n ++ skipn (L / k * n) coded0).
          assert (Hc : length c = length coded0). { unfold c. rewrite !app_length, firstn_length, repeat_length, skipn_length. lia. }
          rewrite HS by exact Hc. do 3 f_equal. unfold c. rewrite firstn_app, firstn_firstn, firstn_length.
          replace (Nat.min ((L / k - 1) * n) ((L / k - 1) * n)) with ((L / k - 1) * n)%nat by lia.
          replace ((L / k - 1) * n - Nat.min ((L / k - 1) * n) (length coded0))%nat with 0%nat by lia. rewrite firstn_O, app_nil_r. do 2 f_equal.
          rewrite skipn_app, firstn_length. rewrite skipn_all2 by (rewrite firstn_length; lia).
          replace ((L / k - 1) * n + n - Nat.min ((L / k - 1) * n) (length coded0))%nat with n by lia.
          rewrite skipn_app, repeat_length, Nat.sub_diag, skipn_all2 by (rewrite repeat_length; lia). reflexivity. }
  cbv zeta in Hr |- *. rewrite Hr. cbn [bind]. clear Hr.
  assert (Hc : (v_tb v < tb)%nat) by lia.
  destruct (acs_loop_ok (rs (S t)) (v_pm v) (v_tb v) (garbage (S t)) (v_paths v) (v_syms v) tb) as (sc' & paths' & syms' & E & HP & HS & HPS);
    [apply rs_length; lia|rewrite I3; apply pml_length|apply Hg|exact I4|exact I5|exact Hc|].
  rewrite E. cbn [bind]. rewrite I3. change (map (met (pml t) (rs (S t))) (seq 0 NS)) with (pml (S t)).
  assert (HC : cols paths' syms' (t + 1 - v_tb v) (v_tb v)).
  { intros s j Hs Hj. destruct (HPS s j Hs) as [P1 P2]. destruct (Nat.eqb_spec j (v_tb v)) as [->|Hne].
    - rewrite P1, P2, I3. unfold ViterbiProofs.dec. replace (t + 1 - v_tb v + v_tb v)%nat with (S t) by lia. replace (S t - 1)%nat with t by lia. split; reflexivity.
    - rewrite P1, P2. apply I8; lia. }
  destruct (Nat.leb_spec tb (S t + 1)) as [G|G].
  - unfold traceback. replace (v_tb v) with (tb - 1)%nat in HC by lia.
    destruct (traceback_loop tb paths' syms' (S t + 1 - tb) (v_count v) (tb - 1) HP HS) with (s := best (S t)) (db := v_bits v) as (s' & db' & E' & L' & N').
    { replace (S t + 1 - tb)%nat with (t + 1 - (tb - 1))%nat by lia. exact HC. } { lia. } { rewrite I7. replace (t + 2 - tb)%nat with (S t + 1 - tb)%nat by lia. nia. }
    { apply best_lt; auto. } { replace (S t + 1 - tb + (tb - 1))%nat with (S t) by lia. nia. }
    unfold ViterbiProofs.best in E'. rewrite E'. cbn [bind snd].
    eexists. split; [reflexivity|]. unfold INV. cbn [v_coded v_view v_pm v_paths v_syms v_bits v_tb v_count].
    split; [reflexivity|]. split; [reflexivity|]. split; [reflexivity|]. split; [apply shift_mat; [lia|exact HP]|]. split; [apply shift_mat; [lia|exact HS]|].
    split; [lia|]. split; [rewrite I7; replace (S t + 2 - tb)%nat with (S (t + 2 - tb)) by lia; nia|].
    split. { intros s j Hs Hj. rewrite !(shift_nth _ tb) by (assumption || lia). replace (S t + 1 - (tb - 1) + j)%nat with (t + 1 - (tb - 1) + S j)%nat by lia. apply HC; lia. }
    split; [lia|]. intros i. rewrite N', I10. replace (S t + 1 - tb + (tb - 1))%nat with (S t) by lia. unfold bit_after.
    assert (tb <=? S t + 1 = true)%nat as -> by (apply Nat.leb_le; lia). cbn [andb].
    pose proof (Nat.div_mod i k ltac:(lia)) as Hdiv. pose proof (Nat.mod_upper_bound i k ltac:(lia)) as Hmod. set (q := (i / k)%nat) in *.
    destruct (Nat.leb_spec ((S t + 1 - tb) * k) i) as [G1|G1]; cbn [andb].
    + destruct (Nat.ltb_spec i (S t * k)) as [G2|G2].
      * assert (S t + 1 - tb <= q)%nat by (apply Nat.div_le_lower_bound; [lia|rewrite Nat.mul_comm; exact G1]). replace (Nat.min (S t) (q + tb - 1)) with (S t) by lia. reflexivity.
      * assert (i <? t * k = false)%nat as -> by (apply Nat.ltb_ge; cbn [Nat.mul] in G2; lia). rewrite andb_false_r. reflexivity.
    + assert (Htk : (i < t * k)%nat) by (apply (Nat.lt_le_trans _ _ _ G1); apply Nat.mul_le_mono_r; lia).
      assert (i <? S t * k = true)%nat as -> by (apply Nat.ltb_lt; cbn [Nat.mul]; lia). assert (i <? t * k = true)%nat as -> by (apply Nat.ltb_lt; exact Htk).
      rewrite andb_true_r. assert (q < S t + 1 - tb)%nat by (apply Nat.div_lt_upper_bound; [lia|rewrite Nat.mul_comm; exact G1]). assert (tb <=? t + 1 = true)%nat as -> by (apply Nat.leb_le; nia).
      replace (Nat.min t (q + tb - 1)) with (Nat.min (S t) (q + tb - 1)) by lia. reflexivity.
  - eexists. split; [reflexivity|]. unfold INV. cbn [v_coded v_view v_pm v_paths v_syms v_bits v_tb v_count].
    split; [reflexivity|]. split; [reflexivity|]. split; [reflexivity|]. split; [exact HP|]. split; [exact HS|].
    split; [lia|]. split; [rewrite I7; replace (S t + 2 - tb)%nat with 0%nat by lia; replace (t + 2 - tb)%nat with 0%nat by lia; reflexivity|].
    split. { intros s j Hs Hj. replace (S t + 1 - (v_tb v + 1) + j)%nat with (t + 1 - v_tb v + j)%nat by lia. apply HC; lia. }
    split; [exact I9|]. intros i. rewrite I10. unfold bit_after.
    assert (tb <=? S t + 1 = false)%nat as -> by (apply Nat.leb_gt; lia). assert (tb <=? t + 1 = false)%nat as -> by (apply Nat.leb_gt; lia). reflexivity.
Qed.

Lemma main_loop D T v : INV D 0 v -> (T * k <= D)%nat -> exists v', foldM (vstep add leb d tr L tb garbage) (seq 1 T) v = Ok v' /\ INV D T v'.
Proof.
  intros H0 HD. destruct (foldM_inv (fun i v => INV D (i - 1) v) (vstep add leb d tr L tb garbage) T 1 v) as (v' & E & H).
  - exact H0.
  - intros i b Hi Hb. destruct i as [|i]; [lia|]. replace (S i - 1)%nat with i in Hb by lia. destruct (vstep_ok D i b Hb ltac:(nia)) as (b' & E & H).
    exists b'. split; [exact E|]. replace (S (S i) - 1)%nat with (S i) by lia. exact H.
  - exists v'. replace (1 + T - 1)%nat with T in H by lia. split; assumption.
Qed.
End Arrays.

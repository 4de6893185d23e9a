(* The 64-state code with generators 133 and 171 (octal): excursions and the error pattern the decoder corrects (statement repeated in P_VitK7.v). *)
From Coq Require Import Reals Lra.
From Verif Require Import Base UtilModel UtilProofs TrellisModel TrellisSpec TrellisProofs FloatRate ConvProofs ConvCode ConvMore ConvTop
  ViterbiModel ViterbiReal ViterbiSpec ViterbiProofs ViterbiArray ViterbiRun ViterbiCore ViterbiInst ViterbiTop WifiSpec.
Local Open Scope Z_scope.
Lemma numbers7 (a b c tau lu : nat) (Q W : Z) (A : Prop) : A \/ ~ A -> (a <= b < c)%nat -> (forall m, (c - a <= 47 * m)%nat -> Q <= 4 * Z.of_nat m) -> ((lu - 12 <= a)%nat -> Q <= 3) ->
  (c < tau \/ 21 <= c - b \/ (c = tau /\ tau = lu + 5 /\ 12 <= c - b))%nat -> ((c < tau)%nat -> A) ->
  4 * Z.of_nat (c - a) + 17 <= 13 * W -> (A -> 10 <= W) -> (12 <= Z.of_nat (c - a) -> 6 <= W) -> (18 <= Z.of_nat (c - a) -> 8 <= W) -> (21 <= Z.of_nat (c - a) -> 9 <= W) ->
  2 * Q < W \/ (c = tau /\ (lu <= tau)%nat /\ ~ A /\ 2 * Q <= W).
Proof.
  intros DA Hab HQ HT Hcase Hend X1 X2 X3 X4 X5.
  pose proof (Nat.div_mod (c - a + 46) 47 ltac:(lia)) as DM. pose proof (Nat.mod_upper_bound (c - a + 46) 47 ltac:(lia)) as DM2. revert DM DM2. generalize ((c - a + 46) / 47)%nat ((c - a + 46) mod 47)%nat. intros m r DM DM2.
  assert (HQm : Q <= 4 * Z.of_nat m) by (apply HQ; lia). clear HQ. assert (HW3 : (m = 1 \/ 2 <= m)%nat) by lia. destruct HW3 as [M1|M2]; [|left; clear - HQm M2 DM DM2 X1; lia]. subst m.
  destruct DA as [W0|W0]; [left; specialize (X2 W0); clear - HQm X2; lia|]. destruct Hcase as [Hc1|[Hc1|(Ct & Lt & Hc1)]]; [contradiction (W0 (Hend Hc1))|left; specialize (X5 ltac:(clear - Hc1 Hab; lia)); clear - X5 HQm; lia|].
  right. split; [exact Ct|]. split; [clear - Lt; lia|]. split; [exact W0|]. destruct (Nat.le_gt_cases 18 (c - a)) as [L|L]; [specialize (X4 ltac:(clear - L; lia)); clear - X4 HQm; lia|].
  specialize (X3 ltac:(clear - Hc1 Hab; lia)). specialize (HT ltac:(clear - L Ct Lt; lia)). clear - X3 HT. lia.
Qed.

(* a lower bound on the weight of every excursion from a table of per-state bounds *)
Section Exc.
Variables (next : Z -> Z -> Z) (S : Z).
Hypothesis Hrange : forall s u, 0 <= s < S -> u = 0 \/ u = 1 -> 0 <= next s u < S.
Lemma exc_range e : forall s, 0 <= s < S -> inputs 1 e -> 0 <= walk next s e < S.
Proof.
  induction e as [|u e IH]; intros s Hs He; [exact Hs|]. inversion He; subst. cbn [walk]. apply IH; [|assumption]. apply Hrange; [exact Hs|]. change (2 ^ Z.of_nat 1) with 2 in *. lia.
Qed.
Hypothesis HS : 0 < S.
Variables (ow : Z -> Z -> Z) (n : nat) (cert : nat -> Z -> Z) (D : Z) (L : nat).
Hypothesis Hbase : cert 1%nat (next 0 1) <= D * weight (bits_msb n (ow 0 1)).
Hypothesis Hstep : forall l s u, (1 <= l < L)%nat -> 0 < s < S -> u = 0 \/ u = 1 -> cert (Datatypes.S l) (next s u) <= cert l s + D * weight (bits_msb n (ow s u)).
Lemma excursion_bound : forall e, inputs 1 e -> (1 <= length e <= L)%nat -> nth 0 e 0 <> 0 -> (forall i, (0 < i < length e)%nat -> walk next 0 (firstn i e) <> 0) ->
  cert (length e) (walk next 0 e) <= D * weight (bitstream n (emit next ow 0 e)).
Proof.
  intros e. induction e as [|u e IH] using rev_ind; intros Hi HL H0 Hz; [cbn in HL; lia|].
  assert (Hi' : inputs 1 e /\ (u = 0 \/ u = 1)). { apply Forall_app in Hi. destruct Hi as [H1 H2]. split; [exact H1|]. inversion H2; subst. change (2 ^ Z.of_nat 1) with 2 in *. lia. } destruct Hi' as [Hi' Hu].
  rewrite walk_app, emit_app, bitstream_app, weight_app. cbn [walk emit]. unfold bitstream at 2. cbn [map concat]. rewrite app_nil_r. rewrite app_length in *. cbn [length] in *.
  destruct e as [|v e'].
  - cbn [app nth] in H0. destruct Hu as [->| ->]; [lia|]. exact Hbase.
  - set (e := v :: e') in *. assert (Ne : walk next 0 e <> 0). { specialize (Hz (length e)). rewrite firstn_app, Nat.sub_diag, firstn_all, app_nil_r in Hz. apply Hz. unfold e. cbn [length]. lia. }
    assert (Hr : 0 <= walk next 0 e < S) by (apply exc_range; [lia|exact Hi']).
    assert (L1 : (1 <= length e)%nat) by (unfold e; cbn [length]; lia). assert (H0' : nth 0 e 0 <> 0) by exact H0. clearbody e. clear H0.
    specialize (IH Hi' ltac:(lia) H0'). specialize (IH ltac:(intros i Hi2; specialize (Hz i); rewrite firstn_app in Hz; replace (i - length e)%nat with 0%nat in Hz by lia; cbn [firstn] in Hz; rewrite app_nil_r in Hz; apply Hz; lia)).
    specialize (Hstep (length e) (walk next 0 e) u ltac:(lia) ltac:(lia) Hu).
    replace (length e + 1)%nat with (Datatypes.S (length e)) by lia. change (bits_msb n (ow (walk next 0 e) u) ) with (bits_msb n (ow (walk next 0 e) u)). lia.
Qed.
End Exc.

(* b = true: polynomial_format LSB (leading bit D^0), b = false: MSB *)
Definition std7 (b : bool) : code := rate_half 91 121 (if b then LSB else MSB).
Definition nx7t : list (list Z) := Eval vm_compute in tr_next (the_trellis (std7 true) false).
Definition ou7t : list (list Z) := Eval vm_compute in tr_out (the_trellis (std7 true) false).
Definition nx7f : list (list Z) := Eval vm_compute in tr_next (the_trellis (std7 false) false).
Definition ou7f : list (list Z) := Eval vm_compute in tr_out (the_trellis (std7 false) false).
Definition nx7 (b : bool) := if b then nx7t else nx7f.
Definition ou7 (b : bool) := if b then ou7t else ou7f.
Lemma nx7_is b : tr_next (the_trellis (std7 b) false) = nx7 b. Proof. destruct b; vm_compute; reflexivity. Qed.
Lemma ou7_is b : tr_out (the_trellis (std7 b) false) = ou7 b. Proof. destruct b; vm_compute; reflexivity. Qed.
Definition states7 : list Z := map Z.of_nat (seq 0 64).
Lemma states7_in s : 0 <= s < 64 -> In s states7.
Proof. intros H. apply in_map_iff. exists (Z.to_nat s). split; [apply Z2Nat.id; lia|]. apply in_seq. lia. Qed.
Lemma states7_tl s : 0 < s < 64 -> In s (tl states7).
Proof. intros Hs. pose proof (states7_in s ltac:(lia)) as Q. destruct Q as [Q|Q]; [cbn in Q; lia|exact Q]. Qed.
Lemma range7 b : forall s u, 0 <= s < 64 -> u = 0 \/ u = 1 -> 0 <= entry (nx7 b) s u < 64.
Proof.
  assert (K : forallb (fun s => forallb (fun u => (0 <=? entry (nx7 b) s u) && (entry (nx7 b) s u <? 64)) [0; 1]) states7 = true) by (destruct b; vm_compute; reflexivity).
  intros s u Hs Hu. rewrite forallb_forall in K. specialize (K s (states7_in s Hs)). rewrite forallb_forall in K. specialize (K u ltac:(destruct Hu as [-> | ->]; cbn; tauto)). apply andb_prop in K. destruct K as [K1 K2]. apply Z.leb_le in K1. apply Z.ltb_lt in K2. lia.
Qed.
(* edges (state, next state, weight of the output word) leaving nonzero states *)
Definition edges7 (b : bool) : list (Z * Z * Z) :=
  concat (map (fun s => map (fun u => (s, entry (nx7 b) s u, weight (bits_msb 2 (entry (ou7 b) s u)))) [0; 1]) (tl states7)).
(* the least weight of a code stream of l words that starts with a nonzero symbol, ends in the given state and avoids state 0 in between *)
Definition relax7 (edges : list (Z * Z * Z)) (d : list Z) : list Z :=
  map (fun t => fold_right Z.min 1000 (map (fun e => let '(s, _, w) := e in nth (Z.to_nat s) d 1000 + w) (filter (fun e => let '(_, t', _) := e in t' =? t) edges))) states7.
Fixpoint rows7 (edges : list (Z * Z * Z)) (l : nat) (d : list Z) : list (list Z) := match l with O => [] | Datatypes.S l => d :: rows7 edges l (relax7 edges d) end.
Definition first7 (b : bool) : list Z := map (fun t => if t =? entry (nx7 b) 0 1 then weight (bits_msb 2 (entry (ou7 b) 0 1)) else 1000) states7.
Definition table7t : list (list Z) := Eval vm_compute in rows7 (edges7 true) 48 (first7 true).
Definition table7f : list (list Z) := Eval vm_compute in rows7 (edges7 false) 48 (first7 false).
Definition cert7 (b : bool) (l : nat) (s : Z) : Z := nth (Z.to_nat s) (nth (l - 1) (if b then table7t else table7f) []) 0.
Definition pot7 (b : bool) : list Z := if b then [60; 38; 29; 41; 33; 33; 36; 32; 33; 37; 24; 26; 30; 40; 23; 37; 31; 37; 38; 28; 36; 28; 39; 17; 34; 34; 31; 35; 27; 25; 36; 28;
    22; 38; 29; 41; 29; 33; 26; 32; 27; 37; 32; 26; 30; 40; 21; 37; 31; 25; 38; 22; 36; 22; 39; 33; 34; 18; 31; 29; 27; 27; 36; 32]
  else [60; 38; 29; 35; 37; 33; 26; 42; 27; 41; 24; 40; 30; 48; 33; 35; 31; 31; 32; 40; 36; 28; 43; 31; 38; 34; 45; 39; 37; 41; 34; 26;
    22; 38; 33; 35; 23; 33; 44; 42; 27; 41; 32; 40; 34; 48; 37; 35; 31; 29; 32; 38; 36; 36; 43; 33; 38; 28; 45; 29; 37; 25; 34; 30].
Lemma pot7_ge b s : 0 <= s < 64 -> 17 <= nth (Z.to_nat s) (pot7 b) 0.
Proof.
  assert (K : forallb (fun s => 17 <=? nth (Z.to_nat s) (pot7 b) 0) states7 = true) by (destruct b; vm_compute; reflexivity).
  intros Hs. rewrite forallb_forall in K. apply Z.leb_le. apply K. apply states7_in. exact Hs.
Qed.
(* exact for up to 48 words; 13 weight >= 4 words + 17 beyond *)
Lemma excursion7 b e : inputs 1 e -> (1 <= length e)%nat -> nth 0 e 0 <> 0 -> let next := entry (tr_next (the_trellis (std7 b) false)) in
  (forall i, (0 < i < length e)%nat -> walk next 0 (firstn i e) <> 0) ->
  let w := weight (encoded (the_trellis (std7 b) false) e) in let l := Z.of_nat (length e) in
  4 * l + 17 <= 13 * w /\ (walk next 0 e = 0 -> 10 <= w) /\ (12 <= l -> 6 <= w) /\ (18 <= l -> 8 <= w) /\ (21 <= l -> 9 <= w).
Proof.
  intros Hi HL H0 next Hz w l. assert (Ew : w = weight (bitstream 2 (emit (entry (nx7 b)) (entry (ou7 b)) 0 e))) by (unfold w, encoded; rewrite nx7_is, ou7_is; reflexivity). clearbody w. subst w. unfold next in *. rewrite nx7_is in *. clear next. set (next := entry (nx7 b)) in *. set (w := weight _).
  assert (Hr : 0 <= walk next 0 e < 64) by (apply (exc_range next 64 (range7 b)); [lia|exact Hi]).
  assert (A : 4 * l + nth (Z.to_nat (walk next 0 e)) (pot7 b) 0 <= 13 * w).
  { assert (K : forallb (fun s => forallb (fun u => nth (Z.to_nat (entry (nx7 b) s u)) (pot7 b) 0 + 4 <=? nth (Z.to_nat s) (pot7 b) 0 + 13 * weight (bits_msb 2 (entry (ou7 b) s u))) [0; 1]) (tl states7) = true) by (destruct b; vm_compute; reflexivity).
    apply (excursion_bound next 64 (range7 b) ltac:(lia) (entry (ou7 b)) 2 (fun l s => 4 * Z.of_nat l + nth (Z.to_nat s) (pot7 b) 0) 13 (length e)); try assumption; [unfold next; destruct b; vm_compute; discriminate| |lia].
    intros m s u Hm Hs Hu. rewrite forallb_forall in K. specialize (K s (states7_tl s Hs)). rewrite forallb_forall in K. specialize (K u ltac:(destruct Hu as [-> | ->]; cbn; tauto)). apply Z.leb_le in K. unfold next. lia. }
  assert (B : (length e <= 48)%nat -> cert7 b (length e) (walk next 0 e) <= w).
  { intros L48. assert (K : forallb (fun m => forallb (fun s => forallb (fun u => cert7 b (Datatypes.S m) (entry (nx7 b) s u) <=? cert7 b m s + weight (bits_msb 2 (entry (ou7 b) s u))) [0; 1]) (tl states7)) (seq 1 47) = true) by (destruct b; vm_compute; reflexivity).
    rewrite <- (Z.mul_1_l w). unfold w. apply (excursion_bound next 64 (range7 b) ltac:(lia) (entry (ou7 b)) 2 (cert7 b) 1 48); try assumption; [unfold next; destruct b; vm_compute; discriminate| |lia].
    intros m s u Hm Hs Hu. rewrite forallb_forall in K. specialize (K m ltac:(apply in_seq; lia)). rewrite forallb_forall in K. specialize (K s (states7_tl s Hs)). rewrite forallb_forall in K. specialize (K u ltac:(destruct Hu as [-> | ->]; cbn; tauto)). apply Z.leb_le in K. unfold next. lia. }
  pose proof (pot7_ge b _ Hr) as P. split; [lia|].
  destruct (Nat.le_gt_cases (length e) 48) as [L|L].
  - specialize (B L). assert (K : forallb (fun m => forallb (fun s => (if s =? 0 then 10 <=? cert7 b m s else true) && (if (12 <=? m)%nat then 6 <=? cert7 b m s else true) && (if (18 <=? m)%nat then 8 <=? cert7 b m s else true) && (if (21 <=? m)%nat then 9 <=? cert7 b m s else true)) states7) (seq 1 48) = true) by (destruct b; vm_compute; reflexivity).
    rewrite forallb_forall in K. specialize (K (length e) ltac:(apply in_seq; lia)). rewrite forallb_forall in K. specialize (K _ (states7_in _ Hr)). rewrite !andb_true_iff in K. destruct K as (((K1 & K2) & K3) & K4).
    split; [intros E; rewrite E in *; cbn [Z.eqb] in K1; apply Z.leb_le in K1; lia|]. split; [intros Hl; destruct (Nat.leb_spec 12 (length e)); [apply Z.leb_le in K2; lia|unfold l in *; lia]|].
    split; [intros Hl; destruct (Nat.leb_spec 18 (length e)); [apply Z.leb_le in K3; lia|unfold l in *; lia]|intros Hl; destruct (Nat.leb_spec 21 (length e)); [apply Z.leb_le in K4; lia|unfold l in *; lia]].
  - unfold l in *. repeat split; intros; lia.
Qed.
Lemma windows_count47 x y : length x = length y -> (forall i, mismatches (slice x (2 * i) (2 * i + 94)) (slice y (2 * i) (2 * i + 94)) <= 4) ->
  forall m a l, (l <= 47 * m)%nat -> mismatches (slice x (2 * a) (2 * (a + l))) (slice y (2 * a) (2 * (a + l))) <= 4 * Z.of_nat m.
Proof.
  intros HL H. assert (SL : forall p q, length (slice x p q) = length (slice y p q)) by (intros p q; unfold slice; rewrite !firstn_length, !skipn_length, HL; reflexivity).
  induction m as [|m IH]; intros a l Hl.
  - assert (l = 0%nat) as -> by lia. rewrite Nat.add_0_r. unfold slice. rewrite Nat.sub_diag. cbn. lia.
  - destruct (Nat.le_gt_cases l 47) as [L|L].
    + specialize (H a). rewrite (slice_split x _ (2 * (a + l))), (slice_split y _ (2 * (a + l))) in H by lia. rewrite mismatches_app in H by apply SL.
      pose proof (mismatches_nonneg (slice x (2 * (a + l)) (2 * a + 94)) (slice y (2 * (a + l)) (2 * a + 94))). lia.
    + rewrite (slice_split x _ (2 * a + 94)), (slice_split y _ (2 * a + 94)) by lia. rewrite mismatches_app by apply SL. specialize (H a). specialize (IH (a + 47)%nat (l - 47)%nat ltac:(lia)).
      replace (2 * (a + 47))%nat with (2 * a + 94)%nat in IH by lia. replace (a + 47 + (l - 47))%nat with (a + l)%nat in IH by lia. lia.
Qed.
Lemma mismatches_tail x y p q r : length x = length y -> (p <= q)%nat -> mismatches (slice x q r) (slice y q r) <= mismatches (skipn p x) (skipn p y).
Proof.
  intros HL H. assert (SL : forall p q, length (slice x p q) = length (slice y p q)) by (intros p0 q0; unfold slice; rewrite !firstn_length, !skipn_length, HL; reflexivity).
  set (N := (Nat.max r (Nat.max q (length x)))%nat). assert (E : forall z : list Z, (length z <= N)%nat -> skipn p z = slice z p N) by (intros z Hz; unfold slice; symmetry; apply firstn_all2; rewrite skipn_length; lia).
  rewrite (E x) by lia. rewrite (E y) by lia. rewrite (slice_split x p q N), (slice_split y p q N) by lia. rewrite mismatches_app by apply SL. pose proof (mismatches_nonneg (slice x p q) (slice y p q)).
  destruct (Nat.le_gt_cases q r) as [L|L].
  - rewrite (slice_split x q r N), (slice_split y q r N) by lia. rewrite mismatches_app by apply SL. pose proof (mismatches_nonneg (slice x r N) (slice y r N)). lia.
  - unfold slice at 1 2. replace (r - q)%nat with 0%nat by lia. cbn [firstn]. pose proof (mismatches_nonneg (slice x q N) (slice y q N)). change (mismatches [] []) with 0. lia.
Qed.

Lemma C65_code_133_171_proof :
forall (garbage : regs) (f : poly_format) (tr : Trellis) (msg coded received : list Z) gp (gs : nat -> scratch Z),
    f = MSB \/ f = LSB -> trellis_of garbage (rate_half 91 121 f) false = Ok tr -> shaped (rate_half 91 121 f) gs -> bits msg -> (16 <= length msg)%nat -> Z.of_nat (length msg) < 2 ^ 47 ->
    conv_encode msg tr Term None = Ok coded -> bits received -> length received = length coded ->
    (* at most four errors among any 94 consecutive bits, at most three among the last 24 *)
    (forall i, mismatches (slice received (2 * i) (2 * i + 94)) (slice coded (2 * i) (2 * i + 94)) <= 4) ->
    mismatches (skipn (length coded - 24) received) (skipn (length coded - 24) coded) <= 3 ->
    exists out caller, viterbi_decode Z.add Z.leb 0 hard received tr None gp gs = Ok (map Some out, caller) /\ length out = (length msg + 6)%nat /\
      firstn (length msg) out = msg.
Proof.
  intros garbage f tr msg coded rc gp gs Hf E Hg Hbm HL5 Hbig Henc Hrb HrL Hwin Htail. assert (exists bf, rate_half 91 121 f = std7 bf) as (bf & Ebf) by (destruct Hf as [-> | ->]; [exists false|exists true]; reflexivity). rewrite Ebf in *. clear f Hf Ebf. pose proof E as E0.
  assert (WF : well_formed (std7 bf)) by (destruct bf; apply wf_check_ok; reflexivity). rewrite trellis_of_spec in E by exact WF. injection E as <-.
  destruct (encode_is_encoded (std7 bf) msg coded (length msg + 6) WF eq_refl ltac:(cbn; lia) ltac:(destruct bf; vm_compute; reflexivity)) as (Ec & Ls & Hin & Hw & Hbs); try assumption.
  { change (MM (std7 bf)) with 6%nat. change (outs (std7 bf)) with 2%nat. change (2 ^ 49) with (2 ^ 47 * 4). lia. }
  { change (MM (std7 bf)) with 6%nat. change (kk (std7 bf)) with 1%nat. cbn [Nat.modulo Nat.divmod snd Nat.sub]. lia. }
  { destruct bf; vm_compute; lia. }
  set (us := symbols _ _) in *. clearbody us. change (kk (std7 bf)) with 1%nat in *. change (MM (std7 bf)) with 6%nat in *. rewrite bitstream1_nth in Hbs by exact Hin. change (6 + 6 mod 1)%nat with 6%nat in Hbs.
  assert (HLc : length rc = (length us * 2)%nat) by (rewrite HrL, Ec, encoded_length; reflexivity). subst coded.
  assert (HD : decodable (std7 bf) (length us) gs). { split; [exact WF|]. split; [left; reflexivity|]. split; [cbn; lia|]. split; [destruct bf; vm_compute; lia|]. split; [destruct bf; vm_compute; reflexivity|]. split; [|exact Hg]. change (kk (std7 bf)) with 1%nat. rewrite Ls. change (2 ^ 49) with (2 ^ 47 * 4). lia. }
  assert (Est : steps (std7 bf) (length us) = (length us + 5)%nat). { unfold steps. change (kk (std7 bf)) with 1%nat. change (MM (std7 bf)) with 6%nat. rewrite Nat.mul_1_r, Nat.div_1_r. lia. }
  assert (Ede : depth (std7 bf) (length us) None = Nat.min 30 (length us)). { unfold depth. change (kk (std7 bf)) with 1%nat. change (MM (std7 bf)) with 6%nat. rewrite Nat.mul_1_r. reflexivity. }
  assert (HU : usable (std7 bf) (length us) None). { unfold usable. rewrite Est, Ede. change (kk (std7 bf)) with 1%nat. change (MM (std7 bf)) with 6%nat. lia. }
  destruct (C29_hard_window_proof garbage (std7 bf) false _ rc (length us) None gp gs E0 HD HU Hrb HLc) as (out & caller & sv & E1 & L1 & _). change (kk (std7 bf)) with 1%nat in L1. rewrite Nat.mul_1_r, Ls in L1.
  exists out, caller. split; [exact E1|]. split; [exact L1|].
  apply (nth_ext _ _ 0 0); [rewrite !firstn_length; lia|]. intros b Hb. rewrite firstn_length in Hb. rewrite firstn_nth by lia.
  assert (Eu : nth b msg 0 = nth b us 0) by (rewrite Hbs, app_nth1 by lia; reflexivity).
  destruct (C65_sparse_errors_proof garbage (std7 bf) false _ us rc None gp gs b E0 HD HU Hin Hrb HLc ltac:(lia) (or_intror Hw)) as (out' & caller' & E2 & _ & Hsl).
  { rewrite Est, Ede. intros a c e Ha Hc Hle Hie Hnz Hinner Hend. set (tau := Nat.min (length us + 5) (b + Nat.min 30 (length us) - 1)) in *.
    assert (Hcase : (c < tau \/ 21 <= c - b \/ (c = tau /\ tau = length us + 5 /\ 12 <= c - b))%nat) by lia.
    assert (H0 : nth 0 e 0 <> 0). { destruct (Nat.eq_dec (b - a) 0) as [Z0|NZ]; [rewrite Z0 in Hnz; exact Hnz|]. intros H0. apply (Hinner 1%nat); [lia|]. destruct e as [|v e]; [cbn in Hle; lia|]. cbn [nth] in H0. subst v. cbn [firstn walk]. rewrite nx7_is. destruct bf; reflexivity. }
    pose proof (excursion7 bf e Hie ltac:(lia) H0) as X. cbv zeta in X. rewrite Hle in X. specialize (X Hinner). set (next := entry _) in *. change (outs (std7 bf)) with 2%nat. rewrite (Nat.mul_comm a 2), (Nat.mul_comm c 2). destruct X as (X1 & X2 & X3 & X4 & X5).
    set (W := weight _) in *. set (cd := encoded (the_trellis (std7 bf) false) us) in *. pose proof (windows_count47 rc cd HrL Hwin) as HW.
    assert (HT : (length us - 12 <= a)%nat -> mismatches (slice rc (2 * a) (2 * c)) (slice cd (2 * a) (2 * c)) <= 3).
    { clear - HrL HLc Htail. intros HT. refine (Z.le_trans _ _ _ (mismatches_tail rc cd (length cd - 24) (2 * a) (2 * c) HrL _) Htail). rewrite <- HrL, HLc. lia. }
    cbv zeta. destruct (numbers7 a b c tau (length us) (mismatches (slice rc (2 * a) (2 * c)) (slice cd (2 * a) (2 * c))) W (walk next 0 e = 0)) as [R|(R1 & R2 & R3 & R4)]; try assumption.
    - clear. destruct (Z.eq_dec (walk next 0 e) 0); auto.
    - clear - Ha HW. intros m Hm. specialize (HW m a (c - a)%nat Hm). replace (a + (c - a))%nat with c in HW by (clear - Ha; lia). exact HW.
    - left. exact R.
    - right. split; [exact R1|]. split; [exact R2|]. split; [exact Hw|]. split; [exact R3|exact R4]. }
  rewrite E1 in E2. injection E2 as E2 _. assert (out = out') as <- by (clear - E2; revert out' E2; induction out as [|x l IH]; intros [|y l'] H; try discriminate; [reflexivity|]; cbn [map] in H; injection H as -> H; f_equal; apply IH; exact H).
  change (kk (std7 bf)) with 1%nat in Hsl. rewrite !Nat.mul_1_r in Hsl. rewrite Eu. transitivity (nth 0 (slice out b (b + 1)) 0); [rewrite slice_nth by lia; rewrite Nat.add_0_r; reflexivity|]. rewrite Hsl.
  unfold inputs in Hin. rewrite Forall_forall in Hin. specialize (Hin (nth b us 0) ltac:(apply nth_In; lia)). change (2 ^ Z.of_nat 1) with 2 in Hin. assert (nth b us 0 = 0 \/ nth b us 0 = 1) as [-> | ->] by lia; reflexivity.
Qed.

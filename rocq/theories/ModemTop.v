(* Proofs of the modulation properties C41-C44, C68. *)
From Coq Require Import Permutation.
From Verif Require Import Base UtilModel UtilProofs Cplx ModemModel ModemSpec GrayProofs ModemProofs ModemSoft ModemNoise.
Open Scope Z_scope.

Lemma gray_labels : forall b, (1 <= b)%nat -> let g := fun i : nat => gray (Z.of_nat i) in
  (forall i, (i < 2 ^ b)%nat -> 0 <= g i < 2 ^ Z.of_nat b) /\ (forall i j, (i < 2 ^ b)%nat -> (j < 2 ^ b)%nat -> g i = g j -> i = j) /\
  (forall i, one_bit_apart (g i) (g (i + 1)%nat)) /\ one_bit_apart (g (2 ^ b - 1)%nat) (g 0%nat).
Proof.
  intros b Hb g. assert (R : forall i, (i < 2 ^ b)%nat -> 0 <= Z.of_nat i < 2 ^ Z.of_nat b) by (intros i Hi; rewrite <- Zpow_nat; lia). split; [|split; [|split]].
  - intros i Hi. apply gray_range; [lia|apply R, Hi].
  - intros i j Hi Hj E. apply (gray_inj (Z.of_nat b)) in E; [lia|lia|apply R, Hi|apply R, Hj].
  - intros i. unfold g. rewrite Nat2Z.inj_add. apply gray_neighbours. lia.
  - unfold g. pose proof (pow2_pos b). rewrite Nat2Z.inj_sub, Zpow_nat by lia. replace (Z.of_nat b) with (Z.of_nat (b - 1) + 1) by lia. apply gray_wrap. lia.
Qed.
Lemma wf_nbits : forall md, wf md -> (2 <= length (points md))%nat -> (1 <= num_bits md)%nat.
Proof. intros md (H & _) H2. rewrite H in H2. destruct (num_bits md); cbn in H2; lia. Qed.
Lemma init_perm : forall c r md, modem_init c r = Ok md -> Permutation (points md) c.
Proof.
  intros c r md E. destruct r; [|apply set_wf in E as (_ & ->); reflexivity]. assert (E' := E). unfold modem_init in E'. destruct c as [|x c]; [discriminate|]. destruct (log2_exact (length (x :: c))) as [[|b]|] eqn:El; try discriminate. apply log2_exact_Some in El.
  destruct (init_gray (x :: c) (S b) El ltac:(lia)) as (md' & E1 & _ & _ & HP & _). rewrite E in E1. injection E1 as <-. exact HP.
Qed.
Lemma padded_full : forall b bs, (1 <= b)%nat -> (length bs mod b = 0)%nat -> padded b bs = bs.
Proof. intros b bs Hb H. unfold padded. cbv zeta. rewrite H. cbn [Nat.eqb app]. apply firstn_skipn. Qed.
Lemma four_pow : forall p, (4 ^ p = 2 ^ p * 2 ^ p)%nat.
Proof. intros p. rewrite <- Nat.pow_mul_l. reflexivity. Qed.
Lemma INR_pow4 : forall p, INR (4 ^ p) = (INR (2 ^ p) * INR (2 ^ p))%R.
Proof. intros p. rewrite four_pow, mult_INR. reflexivity. Qed.
Lemma qam_init : forall p, (1 <= p)%nat -> exists c md, qam_points (2 ^ p) = Ok c /\ qam_modem (4 ^ p) = Ok md /\ modem_init c true = Ok md /\ length c = (4 ^ p)%nat /\ NoDup c /\ num_bits md = (2 * p)%nat /\ wf md /\
  Permutation (points md) c /\ (forall i, (i < 4 ^ p)%nat -> nth (Z.to_nat (gray (Z.of_nat i))) (points md) C0 = nth i c C0) /\
  forall a b, (a < 2 ^ p)%nat -> (b < 2 ^ p)%nat -> nth (a * 2 ^ p + b) c C0 = mkC (amp (2 ^ p) a) (amp (2 ^ p) (if Nat.even a then b else 2 ^ p - 1 - b)).
Proof.
  intros p Hp. assert (E2 : (2 ^ p = 2 * 2 ^ (p - 1))%nat) by (rewrite <- Nat.pow_succ_r'; f_equal; lia). destruct (qam_ok (2 ^ (p - 1))) as (c & E & HL & HN). pose proof (qam_nodup _ _ E) as ND. rewrite <- E2 in *.
  assert (HL4 : length c = (2 ^ (2 * p))%nat) by (rewrite HL, Nat.pow_mul_r; symmetry; apply four_pow).
  destruct (init_gray c (2 * p) HL4 ltac:(lia)) as (md & E1 & EB & HW & HP & HG). exists c, md. split; [exact E|]. split.
  - unfold qam_modem. rewrite four_pow, Nat.sqrt_square, Nat.eqb_refl, E. exact E1.
  - split; [exact E1|]. split; [rewrite HL; symmetry; apply four_pow|]. split; [exact ND|]. split; [exact EB|]. split; [exact HW|]. split; [exact HP|]. split; [|exact HN]. intros i Hi. apply HG. rewrite Nat.pow_mul_r. exact Hi.
Qed.
Lemma init_ready : forall c r md, modem_init c r = Ok md -> NoDup c -> (2 <= length c)%nat -> wf md /\ NoDup (points md) /\ (1 <= num_bits md)%nat /\ Permutation (points md) c.
Proof.
  intros c r md E ND Hc. assert (HW := init_wf _ _ _ E). assert (HP := init_perm _ _ _ E). split; [exact HW|]. split; [eapply Permutation_NoDup; [symmetry; exact HP|exact ND]|]. split; [|exact HP]. apply wf_nbits; [exact HW|rewrite (Permutation_length HP); exact Hc].
Qed.
Lemma psk_ready : forall m md, psk_modem m = Ok md -> modem_init (psk_points m) true = Ok md /\ (2 <= m)%nat.
Proof.
  intros m md E. unfold psk_modem in E. destruct (m =? 0)%nat; [discriminate|]. destruct (log2_exact m) as [b|] eqn:El; [|discriminate]. apply log2_exact_Some in El. split; [exact E|].
  destruct m as [|[|m]]; [destruct b; cbn in El; lia|discriminate E|lia].
Qed.
Lemma qam_ready : forall m md, qam_modem m = Ok md -> exists h c, qam_points (2 * h) = Ok c /\ modem_init c true = Ok md /\ NoDup c /\ (2 <= length c)%nat.
Proof.
  intros m md E. unfold qam_modem in E. destruct (Nat.eqb_spec (Nat.sqrt m * Nat.sqrt m) m) as [Es|]; [|discriminate]. set (n := Nat.sqrt m) in *. destruct (qam_points n) as [c|] eqn:Ec; [|discriminate]. cbn [bind] in E.
  destruct (Nat.Even_or_Odd n) as [[h Hh]|[h Hh]].
  - rewrite Hh in Ec. exists h, c. split; [exact Ec|]. split; [exact E|]. split; [eapply qam_nodup, Ec|]. destruct (qam_ok h) as (c' & Ec' & HL & _). rewrite Ec in Ec'. injection Ec' as <-. rewrite HL. destruct h as [|h]; [|lia]. cbn in HL. destruct c; [discriminate E|discriminate HL].
  - exfalso. destruct h as [|h]; [|rewrite Hh, qam_odd in Ec by lia; discriminate]. rewrite Hh in Ec. cbn in Ec. injection Ec as <-. discriminate E.
Qed.
Lemma in_points : forall md bs s, wf md -> (1 <= num_bits md)%nat -> bits bs -> bs <> [] -> modulate md bs = Ok s -> Forall (fun x => In x (points md)) s.
Proof. intros md bs s HW Hn Hb Hne E. rewrite modulate_ok in E by assumption. injection E as <-. apply Forall_map, Forall_forall. intros k _. apply nth_In, label_range; assumption. Qed.
Lemma Forall2_impl : forall {A B} (P P' : A -> B -> Prop) l l', (forall x y, P x y -> P' x y) -> Forall2 P l l' -> Forall2 P' l l'.
Proof. intros A B P P' l l' H HF. induction HF; constructor; auto. Qed.
Lemma Forall2_strengthen : forall {A B} (Q : A -> Prop) (P P' : A -> B -> Prop) l l', Forall Q l -> Forall2 P l l' -> (forall x y, Q x -> P x y -> P' x y) -> Forall2 P' l l'.
Proof. intros A B Q P P' l l' HQ HF H. induction HF as [|x y l l' Hxy HF IH]; [constructor|]. inversion HQ; subst. constructor; [apply H; assumption|apply IH; assumption]. Qed.

Lemma C41_gray_labels_proof :
(* the point given at position i gets label [label i]; labels of consecutive points, and of the last and the first, differ
     in exactly one bit *)
  forall (c : list C) (b : nat), length c = (2 ^ b)%nat -> (1 <= b)%nat ->
    exists (md : modem) (label : nat -> Z), modem_init c true = Ok md /\ num_bits md = b /\ size_m md = (2 ^ b)%nat /\ Permutation (points md) c /\
      (forall i, (i < 2 ^ b)%nat -> 0 <= label i < 2 ^ Z.of_nat b /\ nth (Z.to_nat (label i)) (points md) C0 = nth i c C0) /\
      (forall i j, (i < 2 ^ b)%nat -> (j < 2 ^ b)%nat -> label i = label j -> i = j) /\
      (forall i, (i + 1 < 2 ^ b)%nat -> one_bit_apart (label i) (label (i + 1)%nat)) /\ one_bit_apart (label (2 ^ b - 1)%nat) (label 0%nat).
Proof.
  intros c b HL Hb. destruct (init_gray c b HL Hb) as (md & E & EB & HW & HP & HG). destruct (gray_labels b Hb) as (G1 & G2 & G3 & G4). exists md, (fun i => gray (Z.of_nat i)).
  split; [exact E|]. split; [exact EB|]. split; [destruct HW as (W1 & W2 & _); rewrite W2, W1, EB; reflexivity|]. split; [exact HP|]. split; [intros i Hi; split; [apply G1, Hi|apply HG, Hi]|]. split; [exact G2|]. split; [intros i _; apply G3|exact G4].
Qed.

Lemma C41_order_kept_proof :
(* reorder_as_gray=False: any power-of-two length, labels are positions *)
  forall (c : list C) (b : nat), length c = (2 ^ b)%nat ->
    exists md : modem, modem_init c false = Ok md /\ num_bits md = b /\ size_m md = (2 ^ b)%nat /\ points md = c.
Proof.
  intros c b HL. destruct (init_plain c b HL) as (md & E & EB & HW & EP). exists md. destruct HW as (W1 & W2 & _). rewrite W2, W1, EB. auto.
Qed.

Lemma C41_bad_length_proof :
forall (c : list C) (r : bool), c <> [] -> (forall b, length c <> (2 ^ b)%nat) -> modem_init c r = Err ValueError /\ set_constellation c = Err ValueError.
Proof.
  intros c r Hne H. split; [apply init_bad_length; assumption|]. exact (init_bad_length c false Hne H).
Qed.

Lemma C41_psk_proof :
forall b : nat, (1 <= b)%nat -> let m := (2 ^ b)%nat in
    exists (md : modem) (label : nat -> Z), psk_modem m = Ok md /\ num_bits md = b /\ length (points md) = m /\ NoDup (points md) /\
      (forall k, (k < m)%nat -> 0 <= label k < Z.of_nat m /\ nth (Z.to_nat (label k)) (points md) C0 = cis (2 * PI * INR k / INR m)) /\
      (forall k, (k < m)%nat -> one_bit_apart (label k) (label ((k + 1) mod m)%nat)).
Proof.
  intros b Hb m. destruct (init_gray (psk_points m) b (psk_length m) Hb) as (md & E & EB & HW & HP & HG). destruct (gray_labels b Hb) as (G1 & G2 & G3 & G4). exists md, (fun i => gray (Z.of_nat i)). pose proof (pow2_pos b) as Hm. fold m in Hm, G1, G4, HG.
  split. { unfold psk_modem. replace (m =? 0)%nat with false by (symmetry; apply Nat.eqb_neq; lia). unfold m at 1. rewrite log2_exact_pow. exact E. }
  split; [exact EB|]. split; [destruct HW as (W1 & _); rewrite W1, EB; reflexivity|]. split; [eapply Permutation_NoDup; [symmetry; exact HP|apply psk_nodup]|]. split.
  - intros k Hk. split; [unfold m; rewrite Zpow_nat; apply G1, Hk|]. rewrite (proj2 (HG k Hk)), psk_nth by exact Hk. f_equal. unfold Rdiv. ring.
  - intros k Hk. destruct (Nat.eq_dec (k + 1) m) as [Ek|Ek].
    + rewrite Ek, Nat.mod_same by lia. replace k with (m - 1)%nat by lia. exact G4.
    + rewrite Nat.mod_small by lia. apply G3.
Qed.

Lemma C41_qam_proof :
(* [label a c] is the label of the point with real part 2a - n + 1 and imaginary part 2c - n + 1, n = 2 ** p *)
  forall p : nat, (1 <= p)%nat -> let n := (2 ^ p)%nat in
    exists (md : modem) (label : nat -> nat -> Z), qam_modem (4 ^ p) = Ok md /\ num_bits md = (2 * p)%nat /\ length (points md) = (4 ^ p)%nat /\ NoDup (points md) /\
      (forall a c, (a < n)%nat -> (c < n)%nat -> 0 <= label a c < Z.of_nat (4 ^ p) /\
         nth (Z.to_nat (label a c)) (points md) C0 = mkC (2 * INR a - INR n + 1) (2 * INR c - INR n + 1)) /\
      (forall a c, (a + 1 < n)%nat -> (c < n)%nat -> one_bit_apart (label a c) (label (a + 1)%nat c)) /\
      (forall a c, (a < n)%nat -> (c + 1 < n)%nat -> one_bit_apart (label a c) (label a (c + 1)%nat)).
Proof.
  intros p Hp n. destruct (qam_init p Hp) as (cs & md & E & EM & EI & HL & ND & EB & HW & HP & HG & HN). exists md, (fun a c => gray (Z.of_nat a) * Z.of_nat n + gray (Z.of_nat c)).
  assert (Hn : Z.of_nat n = 2 ^ Z.of_nat p) by apply Zpow_nat. assert (Hn1 : (1 <= n)%nat) by apply pow2_pos. assert (H4 : (4 ^ p = n * n)%nat) by apply four_pow. fold n in HN.
  destruct (gray_labels p Hp) as (G1 & G2 & G3 & _). fold n in G1, G2. rewrite <- Hn in G1.
  split; [exact EM|]. split; [exact EB|]. split; [rewrite (Permutation_length HP); exact HL|]. split; [eapply Permutation_NoDup; [symmetry; exact HP|exact ND]|]. split; [|split].
  - intros a c Ha Hc. pose proof (G1 a Ha) as Ga. pose proof (G1 c Hc) as Gc. split; [rewrite H4, Nat2Z.inj_mul; nia|].
    set (b := if Nat.even a then c else (n - 1 - c)%nat). assert (Hb : (b < n)%nat) by (unfold b; destruct (Nat.even a); lia).
    assert (EG : gray (Z.of_nat a) * Z.of_nat n + gray (Z.of_nat c) = gray (Z.of_nat (a * n + b))).
    { rewrite Nat2Z.inj_add, Nat2Z.inj_mul, Hn. unfold b. destruct (Nat.even a) eqn:Ev.
      - symmetry. apply gray_split_even; [lia|lia|]. apply Nat.even_spec in Ev as [q ->]. exists (Z.of_nat q). lia.
      - rewrite Nat2Z.inj_sub, Nat2Z.inj_sub, Hn by lia. symmetry. apply gray_split_odd; [lia|lia|]. assert (O : Nat.odd a = true) by (unfold Nat.odd; rewrite Ev; reflexivity). apply Nat.odd_spec in O as [q ->]. exists (Z.of_nat q). lia. }
    rewrite EG, HG by (rewrite H4; nia). rewrite HN by assumption. unfold amp, b. destruct (Nat.even a); [reflexivity|]. replace (n - 1 - (n - 1 - c))%nat with c by lia. reflexivity.
  - intros a c Ha Hc. destruct (G3 a) as (q & Hq & HQ). exists (Z.of_nat p + q). split; [lia|]. intros j Hj. pose proof (G1 c Hc) as Gc. rewrite Hn in *. rewrite !testbit_split by lia. destruct (Z.ltb_spec j (Z.of_nat p)).
    + split; [intros F; exfalso; apply F; reflexivity|lia].
    + rewrite HQ by lia. lia.
  - intros a c Ha Hc. destruct (G3 c) as (q & Hq & HQ). exists q. split; [exact Hq|]. intros j Hj. pose proof (G1 c ltac:(lia)) as Gc. pose proof (G1 (c + 1)%nat ltac:(lia)) as Gc'. rewrite Hn in *. rewrite !testbit_split by lia. destruct (Z.ltb_spec j (Z.of_nat p)).
    + apply HQ. exact Hj.
    + split; [intros F; exfalso; apply F; reflexivity|]. intros ->. assert (F : Z.testbit (gray (Z.of_nat c)) q <> Z.testbit (gray (Z.of_nat (c + 1))) q) by (apply HQ; [exact Hq|reflexivity]). rewrite !(testbit_ge (Z.of_nat p)) in F by lia. congruence.
Qed.

Lemma C41_sizes_proof :
(* exactly the sizes 2, 4, 8, ... (PSK) and 4, 16, 64, ... (QAM) are accepted *)
  forall m : nat,
    (2 <= m -> (forall b, m <> 2 ^ b) -> psk_modem m = Err ValueError)%nat /\ psk_modem 1 = Err ValueError /\ psk_modem 0 = Err OverflowError /\
    (2 <= m -> (forall p, m <> 4 ^ p) -> qam_modem m = Err ValueError)%nat /\ qam_modem 1 = Err OverflowError /\ qam_modem 0 = Err OverflowError.
Proof.
  intros m. split.
  { intros Hm H. unfold psk_modem. replace (m =? 0)%nat with false by (symmetry; apply Nat.eqb_neq; lia). destruct (log2_exact m) as [b|] eqn:E; [|reflexivity]. apply log2_exact_Some in E. exfalso. exact (H b E). }
  split; [reflexivity|]. split; [reflexivity|]. split.
  { intros Hm H. unfold qam_modem. set (n := Nat.sqrt m). destruct (Nat.eqb_spec (n * n) m) as [E|E]; [|reflexivity]. destruct (Nat.Even_or_Odd n) as [[h Hh]|[h Hh]].
    - destruct (qam_ok h) as (c & Ec & HL & _). rewrite <- Hh in *. rewrite Ec. cbn [bind]. apply init_bad_length; [intros F; rewrite F in HL; cbn in HL; lia|]. intros b Eb. rewrite HL, E in Eb.
      destruct (Nat.Even_or_Odd b) as [[q Hq]|[q Hq]].
      + apply (H q). rewrite Eb, Hq, Nat.pow_mul_r. reflexivity.
      + (* an odd power of two is not a square *) exfalso. assert (S : forall q n : nat, (n * n <> 2 ^ (2 * q + 1))%nat).
        { clear. induction q as [|q IH]; intros n Hn; [cbn in Hn; destruct n as [|[|n]]; cbn in Hn; nia|]. replace (2 * S q + 1)%nat with (S (S (2 * q + 1))) in Hn by lia. rewrite !Nat.pow_succ_r' in Hn. destruct (Nat.Even_or_Odd n) as [[k Hk]|[k Hk]]; subst n; [apply (IH k)|]; nia. }
        apply (S q n). rewrite E, Eb, Hq. reflexivity.
    - rewrite Hh. rewrite qam_odd by nia. reflexivity. }
  split; reflexivity.
Qed.

Lemma C42_modulate_proof :
(* symbol k is the point whose label is group k of the bits read as a binary number (the last group may be shorter) *)
  forall (c : list C) (r : bool) (md : modem) (bs : list Z), modem_init c r = Ok md -> (2 <= length c)%nat -> bits bs -> bs <> [] ->
    exists s : list C, modulate md bs = Ok s /\ length s = ((length bs + num_bits md - 1) / num_bits md)%nat /\
      forall k, (k < length s)%nat -> nth k s C0 = nth (Z.to_nat (bitarray2dec (slice bs (k * num_bits md) (k * num_bits md + num_bits md)))) (points md) C0.
Proof.
  intros c r md bs E Hc Hb Hne. assert (HW := init_wf _ _ _ E). assert (HP := init_perm _ _ _ E). assert (Hn : (1 <= num_bits md)%nat) by (apply wf_nbits; [exact HW|rewrite (Permutation_length HP); exact Hc]).
  rewrite modulate_ok by assumption. eexists. split; [reflexivity|]. rewrite map_length, seq_length. split; [reflexivity|]. intros k Hk.
  rewrite (nth_indep _ C0 ((fun k => nth (label md bs k) (points md) C0) 0%nat)) by (rewrite map_length, seq_length; exact Hk). rewrite (map_nth (fun k => nth (label md bs k) (points md) C0)). rewrite seq_nth by exact Hk. reflexivity.
Qed.

Lemma C42_round_trip_proof :
(* distinct points: demodulation inverts modulation; if the number of bits is not a multiple of the bits per symbol, the last
     group comes back completed with zeros on its left *)
  forall (c : list C) (r : bool) (md : modem) (bs : list Z) (v : R), modem_init c r = Ok md -> NoDup c -> (2 <= length c)%nat -> bits bs -> bs <> [] ->
    let b := num_bits md in let n := (length bs / b)%nat in let left := (length bs mod b)%nat in
    exists s : list C, modulate md bs = Ok s /\
      (left = 0%nat -> demodulate md s Hard v = Ok (inl bs)) /\
      (left <> 0%nat -> demodulate md s Hard v = Ok (inl (firstn (n * b) bs ++ repeat 0 (b - left) ++ skipn (n * b) bs))).
Proof.
  intros c r md bs v E ND Hc Hb Hne b n left. assert (HW := init_wf _ _ _ E). assert (HP := init_perm _ _ _ E). assert (Hn : (1 <= num_bits md)%nat) by (apply wf_nbits; [exact HW|rewrite (Permutation_length HP); exact Hc]).
  destruct (roundtrip md bs v HW) as (s & E1 & E2); [eapply Permutation_NoDup; [symmetry; exact HP|exact ND]|assumption|assumption|assumption|]. exists s. split; [exact E1|]. rewrite E2. split; intros Hl.
  - rewrite padded_full by assumption. reflexivity.
  - unfold padded. cbv zeta. apply Nat.eqb_neq in Hl. fold b. fold left. rewrite Hl. reflexivity.
Qed.

Lemma C42_psk_qam_proof :
forall (m : nat) (md : modem) (bs : list Z) (v : R), psk_modem m = Ok md \/ qam_modem m = Ok md -> bits bs -> bs <> [] -> (length bs mod num_bits md = 0)%nat ->
    exists s : list C, modulate md bs = Ok s /\ demodulate md s Hard v = Ok (inl bs).
Proof.
  intros m md bs v E Hb Hne Hl. assert (X : exists c, modem_init c true = Ok md /\ NoDup c /\ (2 <= length c)%nat).
  { destruct E as [E|E].
    - unfold psk_modem in E. destruct (m =? 0)%nat; [discriminate|]. destruct (log2_exact m) as [b|] eqn:El; [|discriminate]. apply log2_exact_Some in El. exists (psk_points m). split; [exact E|]. split; [apply psk_nodup|]. rewrite psk_length.
      destruct m as [|[|m]]; [destruct b; cbn in El; lia|discriminate E|lia].
    - unfold qam_modem in E. destruct (Nat.eqb_spec (Nat.sqrt m * Nat.sqrt m) m) as [Es|]; [|discriminate]. set (n := Nat.sqrt m) in *. destruct (qam_points n) as [c|] eqn:Ec; [|discriminate]. cbn [bind] in E. exists c. split; [exact E|].
      destruct (Nat.Even_or_Odd n) as [[h Hh]|[h Hh]].
      + rewrite Hh in Ec. split; [eapply qam_nodup, Ec|]. destruct (qam_ok h) as (c' & Ec' & HL & _). rewrite Ec in Ec'. injection Ec' as <-. rewrite HL. destruct h as [|h]; [|lia]. cbn in HL. destruct c; [discriminate E|discriminate HL].
      + destruct h as [|h]; [|rewrite Hh, qam_odd in Ec by lia; discriminate]. rewrite Hh in Ec. cbn in Ec. injection Ec as <-. discriminate E. }
  destruct X as (c & EI & ND & Hc). assert (HW := init_wf _ _ _ EI). assert (HP := init_perm _ _ _ EI). assert (Hn : (1 <= num_bits md)%nat) by (apply wf_nbits; [exact HW|rewrite (Permutation_length HP); exact Hc]).
  destruct (roundtrip md bs v HW) as (s & E1 & E2); [eapply Permutation_NoDup; [symmetry; exact HP|exact ND]|assumption|assumption|assumption|]. exists s. split; [exact E1|]. rewrite E2, padded_full by assumption. reflexivity.
Qed.

Lemma C42_nearest_proof :
(* hard decisions: each received value is replaced by the label of a nearest point, the smallest such label on ties *)
  forall (c : list C) (r : bool) (md : modem) (ys : list C) (v : R), modem_init c r = Ok md ->
    exists (out : list Z) (label : nat -> nat), demodulate md ys Hard v = Ok (inl out) /\ length out = (length ys * num_bits md)%nat /\
      forall q, (q < length ys)%nat ->
        let dist l := Cabs (nth q ys C0 - nth l (points md) C0)%C in
        (label q < length (points md))%nat /\ (forall l, (l < length (points md))%nat -> (dist (label q) <= dist l)%R) /\ (forall l, (l < label q)%nat -> (dist (label q) < dist l)%R) /\
        forall j, (j < num_bits md)%nat -> nth (q * num_bits md + j) out 0 = digit (num_bits md) (label q) j.
Proof.
  intros c r md ys v E. assert (HW := init_wf _ _ _ E). destruct (hard_full md ys v HW) as (labels & out & E1 & HL & Eo & HQ). exists out, (fun q => nth q labels 0%nat). split; [exact E1|].
  assert (U : forall x, In x (map (fun l => bits_msb (num_bits md) (Z.of_nat l)) labels) -> length x = num_bits md) by (intros x Hx; apply in_map_iff in Hx as (l & <- & _); apply bits_msb_length).
  split; [rewrite Eo, (concat_length_uniform _ _ U), map_length; lia|]. intros q Hq. cbv zeta. destruct (HQ q Hq) as (Q1 & Q2 & Q3). split; [exact Q1|]. split; [exact Q2|]. split; [exact Q3|].
  intros j Hj. rewrite Eo, (concat_nth_uniform 0 (num_bits md)) by assumption. rewrite (nth_indep _ [] ((fun l => bits_msb (num_bits md) (Z.of_nat l)) 0%nat)) by (rewrite map_length; lia). rewrite (map_nth (fun l => bits_msb (num_bits md) (Z.of_nat l))).
  rewrite bits_msb_nth by exact Hj. unfold digit. apply Z.testbit_spec'. lia.
Qed.

Lemma C42_errors_proof :
(* no bits: ValueError (np.vectorize); a constellation of one point: ZeroDivisionError *)
  forall (md : modem) (bs : list Z) (ys : list C) (v : R),
    ((1 <= num_bits md)%nat -> modulate md [] = Err ValueError) /\ (num_bits md = 0%nat -> modulate md bs = Err ZeroDivisionError) /\ demodulate md ys OtherType v = Err ValueError.
Proof.
  intros md bs ys v. unfold modulate. split; [intros H; replace (num_bits md =? 0)%nat with false by (symmetry; apply Nat.eqb_neq; lia); reflexivity|]. split; [intros ->; reflexivity|reflexivity].
Qed.

Lemma C43_llr_proof :
(* soft output: for symbol q and bit j the logarithm of the likelihood ratio, positive when 1 is more likely *)
  forall (c : list C) (r : bool) (md : modem) (ys : list C) (v : R), modem_init c r = Ok md -> (0 < v)%R ->
    exists out : list R, demodulate md ys Soft v = Ok (inr out) /\ length out = (length ys * num_bits md)%nat /\
      forall q j, (q < length ys)%nat -> (j < num_bits md)%nat ->
        let like := likelihood (points md) (num_bits md) (nth q ys C0) v j in
        (0 < like 1%Z)%R /\ (0 < like 0%Z)%R /\ nth (q * num_bits md + j) out 0%R = ln (like 1%Z / like 0%Z)%R /\
        ((0 < nth (q * num_bits md + j) out 0)%R <-> (like 0%Z < like 1%Z)%R).
Proof.
  intros c r md ys v E _. destruct (soft_full md ys v (init_wf _ _ _ E)) as (out & E1 & HL & HQ). exists out. split; [exact E1|]. split; [exact HL|]. intros q j Hq Hj. cbv zeta. destruct (HQ q j Hq Hj) as (P1 & P0 & EL). split; [exact P1|]. split; [exact P0|]. split; [exact EL|]. rewrite EL. rewrite <- ln_1.
  set (l1 := likelihood _ _ _ _ _ 1) in *. set (l0 := likelihood _ _ _ _ _ 0) in *. assert (PD : (0 < l1 / l0)%R) by (apply Rdiv_lt_0_compat; assumption). split; intros H.
  - apply ln_lt_inv in H; [|lra|exact PD]. apply (Rmult_lt_compat_r l0) in H; [|exact P0]. unfold Rdiv in H. rewrite Rmult_assoc, Rinv_l in H by lra. lra.
  - apply ln_increasing; [lra|]. apply (Rmult_lt_reg_r l0); [exact P0|]. unfold Rdiv. rewrite Rmult_assoc, Rinv_l by lra. lra.
Qed.

Lemma C43_two_points_proof :
(* binary constellation: the LLR is the difference of the squared distances divided by the noise variance *)
  forall (p0 p1 y : C) (v : R), (0 < v)%R ->
    exists md : modem, modem_init [p0; p1] true = Ok md /\ demodulate md [y] Soft v = Ok (inr [((Cnorm2 (y - p0)%C - Cnorm2 (y - p1)%C) / v)%R]).
Proof.
  intros p0 p1 y v Hv. destruct (init_gray [p0; p1] 1 eq_refl ltac:(lia)) as (md & E & EB & HW & HP & HG). exists md. split; [exact E|].
  destruct (soft_full md [y] v HW) as (out & E1 & HL & HQ). rewrite E1. do 2 f_equal. cbn [length] in HL. rewrite EB in HL. destruct out as [|x [|x' out]]; cbn in HL; try lia. f_equal.
  specialize (HQ 0%nat 0%nat ltac:(cbn; lia) ltac:(lia)). cbv zeta in HQ. destruct HQ as (_ & _ & HQ). rewrite EB in HQ. cbn [nth Nat.mul Nat.add] in HQ. rewrite HQ.
  assert (G0 := proj2 (HG 0%nat ltac:(cbn; lia))). assert (G1 := proj2 (HG 1%nat ltac:(cbn; lia))). change (Z.to_nat (gray (Z.of_nat 0))) with 0%nat in G0. change (Z.to_nat (gray (Z.of_nat 1))) with 1%nat in G1. cbn [nth] in G0, G1.
  assert (L1 : likelihood (points md) 1 y v 0 1 = exp (- Cnorm2 (y - p1)%C / v)). { unfold likelihood. change (filter (fun l => digit 1 l 0 =? 1) (seq 0 (2 ^ 1))) with [1%nat]. unfold Rsum. cbn [map fold_right]. fold (@nth C). rewrite G1, Rplus_0_r. reflexivity. }
  assert (L0 : likelihood (points md) 1 y v 0 0 = exp (- Cnorm2 (y - p0)%C / v)). { unfold likelihood. change (filter (fun l => digit 1 l 0 =? 0) (seq 0 (2 ^ 1))) with [0%nat]. unfold Rsum. cbn [map fold_right]. fold (@nth C). rewrite G0, Rplus_0_r. reflexivity. }
  rewrite L1, L0. unfold Rdiv at 1. rewrite <- exp_Ropp, <- exp_plus, ln_exp. field. lra.
Qed.

Lemma C44_energy_proof :
(* Es is the mean squared magnitude of the given points, whatever the labelling *)
  forall (c : list C) (r : bool) (md : modem), modem_init c r = Ok md -> energy md = (Rsum (map Cnorm2 c) / INR (length c))%R.
Proof.
  intros c r md E. destruct (init_wf _ _ _ E) as (_ & _ & W). assert (HP := init_perm _ _ _ E). rewrite W, (Permutation_length HP). f_equal. apply Rsum_perm, Permutation_map, HP.
Qed.

Lemma C44_psk_qam_proof :
forall m : nat, (forall md, psk_modem m = Ok md -> energy md = 1%R) /\ (forall md, qam_modem m = Ok md -> energy md = (2 * (INR m - 1) / 3)%R).
Proof.
  intros m. split; intros md E.
  - unfold psk_modem in E. destruct (Nat.eqb_spec m 0) as [|Hm]; [discriminate|]. destruct (log2_exact m); [|discriminate]. rewrite (C44_energy_proof _ _ _ E), psk_power, psk_length. apply Rinv_r. apply not_0_INR. exact Hm.
  - unfold qam_modem in E. destruct (Nat.eqb_spec (Nat.sqrt m * Nat.sqrt m) m) as [Es|]; [|discriminate]. set (n := Nat.sqrt m) in *. destruct (qam_points n) as [c|] eqn:Ec; [|discriminate]. cbn [bind] in E. rewrite (C44_energy_proof _ _ _ E).
    destruct (Nat.Even_or_Odd n) as [[h Hh]|[h Hh]].
    + destruct (qam_ok h) as (c' & Ec' & HL & _). rewrite Hh in Ec. rewrite Ec in Ec'. injection Ec' as <-. rewrite (qam_power h c Ec), HL. cbv zeta. rewrite <- Hh, mult_INR, <- Es, mult_INR. rewrite <- Hh in HL.
      assert (Hn : INR n <> 0%R). { apply not_0_INR. intros Hz. rewrite Hz in HL. destruct c; [discriminate E|discriminate HL]. } field. exact Hn.
    + destruct h as [|h]; [|rewrite Hh, qam_odd in Ec by lia; discriminate]. rewrite Hh in Ec. cbn in Ec. injection Ec as <-. discriminate E.
Qed.

Lemma C68_decision_regions_proof :
(* every received value closer to the sent point than to any other: no bit error *)
  forall (c : list C) (r : bool) (md : modem) (bs : list Z), modem_init c r = Ok md -> NoDup c -> (2 <= length c)%nat -> bits bs -> bs <> [] -> (length bs mod num_bits md = 0)%nat ->
    exists s : list C, modulate md bs = Ok s /\ forall (ys : list C) (v : R), Forall2 (closest c) s ys -> demodulate md ys Hard v = Ok (inl bs).
Proof.
  intros c r md bs E ND Hc Hb Hne Hmod. destruct (init_ready c r md E ND Hc) as (HW & NDp & Hn & HP). destruct (roundtrip md bs 0%R HW NDp Hn Hb Hne) as (s & E1 & E2). exists s. split; [exact E1|]. intros ys v HF.
  rewrite (demod_noise md bs s ys v HW NDp Hn Hb Hne E1).
  - change (demodulate md s Hard v) with (demodulate md s Hard 0%R). rewrite E2, padded_full by assumption. reflexivity.
  - eapply Forall2_impl; [|exact HF]. intros x y. apply closest_perm. symmetry. exact HP.
Qed.

Lemma C68_margin_proof :
(* points at least d apart, every noise value smaller in magnitude than d / 2: no bit error *)
  forall (c : list C) (r : bool) (md : modem) (bs : list Z) (d : R), modem_init c r = Ok md -> NoDup c -> (2 <= length c)%nat -> bits bs -> bs <> [] -> (length bs mod num_bits md = 0)%nat ->
    (forall p p', In p c -> In p' c -> p <> p' -> (d <= Cabs (p - p')%C)%R) ->
    exists s : list C, modulate md bs = Ok s /\ forall (ys : list C) (v : R), Forall2 (fun x y => (Cabs (y - x)%C < d / 2)%R) s ys -> demodulate md ys Hard v = Ok (inl bs).
Proof.
  intros c r md bs d E ND Hc Hb Hne Hmod Hd. destruct (C68_decision_regions_proof c r md bs E ND Hc Hb Hne Hmod) as (s & E1 & H). exists s. split; [exact E1|]. intros ys v HF. apply H.
  destruct (init_ready c r md E ND Hc) as (HW & NDp & Hn & HP). eapply Forall2_strengthen; [exact (in_points md bs s HW Hn Hb Hne E1)|exact HF|]. intros x y Hx Hxy. cbn beta in *. apply closest_margin with d; [exact Hd| |lra]. eapply Permutation_in; [exact HP|exact Hx].
Qed.

Lemma C68_psk_proof :
forall (m : nat) (md : modem) (bs : list Z), psk_modem m = Ok md -> bits bs -> bs <> [] -> (length bs mod num_bits md = 0)%nat ->
    exists s : list C, modulate md bs = Ok s /\ forall (ys : list C) (v : R), Forall2 (fun x y => (Cabs (y - x)%C < sin (PI / INR m))%R) s ys -> demodulate md ys Hard v = Ok (inl bs).
Proof.
  intros m md bs E Hb Hne Hmod. destruct (psk_ready m md E) as (EI & Hm). destruct (C68_margin_proof (psk_points m) true md bs (2 * sin (PI / INR m)) EI (psk_nodup m) ltac:(rewrite psk_length; exact Hm) Hb Hne Hmod) as (s & E1 & H).
  { intros p p' Hp Hp' Hpp. apply psk_distance; assumption. }
  exists s. split; [exact E1|]. intros ys v HF. apply H. eapply Forall2_impl; [|exact HF]. intros x y Hxy. cbn beta in *. lra.
Qed.

Lemma C68_qam_proof :
(* square QAM: real and imaginary parts of the noise both smaller than 1 in magnitude *)
  forall (m : nat) (md : modem) (bs : list Z), qam_modem m = Ok md -> bits bs -> bs <> [] -> (length bs mod num_bits md = 0)%nat ->
    exists s : list C, modulate md bs = Ok s /\
      forall (ys : list C) (v : R), Forall2 (fun x y => (Rabs (re y - re x) < 1 /\ Rabs (im y - im x) < 1)%R) s ys -> demodulate md ys Hard v = Ok (inl bs).
Proof.
  intros m md bs E Hb Hne Hmod. destruct (qam_ready m md E) as (h & c & Ec & EI & ND & Hc). destruct (C68_decision_regions_proof c true md bs EI ND Hc Hb Hne Hmod) as (s & E1 & H). exists s. split; [exact E1|]. intros ys v HF. apply H.
  destruct (init_ready c true md EI ND Hc) as (HW & NDp & Hn & HP). eapply Forall2_strengthen; [exact (in_points md bs s HW Hn Hb Hne E1)|exact HF|]. intros x y Hx [H1 H2]. apply (closest_square (2 * h)); try assumption; [apply qam_odd_points, Ec|]. eapply Permutation_in; [exact HP|exact Hx].
Qed.

Lemma C68_max_log_proof :
(* the exact log-likelihood ratio differs from the max-log value (difference of the smallest squared distances, over the noise
     variance) by at most ln (M / 2) *)
  forall (c : list C) (r : bool) (md : modem) (ys : list C) (v : R), modem_init c r = Ok md -> (0 < v)%R ->
    exists out : list R, demodulate md ys Soft v = Ok (inr out) /\ length out = (length ys * num_bits md)%nat /\
      forall q j m0 m1, (q < length ys)%nat -> (j < num_bits md)%nat ->
        nearest_bit (points md) (num_bits md) (nth q ys C0) j 0 m0 -> nearest_bit (points md) (num_bits md) (nth q ys C0) j 1 m1 ->
        (Rabs (nth (q * num_bits md + j) out 0 - (m0 - m1) / v) <= ln (INR (2 ^ (num_bits md - 1))))%R.
Proof.
  intros c r md ys v E Hv. destruct (soft_full md ys v (init_wf _ _ _ E)) as (out & E1 & HL & HQ). exists out. split; [exact E1|]. split; [exact HL|]. intros q j m0 m1 Hq Hj N0 N1. destruct (HQ q j Hq Hj) as (_ & _ & EL). rewrite EL. apply max_log_bound; assumption.
Qed.

Lemma C68_soft_signs_proof :
(* points at least d apart, noise of magnitude at most r < d / 2 and a noise variance v small enough: every soft output has the
     sign of the bit sent, positive for 1 and negative for 0 *)
  forall (c : list C) (g : bool) (md : modem) (bs : list Z) (d r v : R), modem_init c g = Ok md -> NoDup c -> (2 <= length c)%nat -> bits bs -> bs <> [] -> (length bs mod num_bits md = 0)%nat ->
    (forall p p', In p c -> In p' c -> p <> p' -> (d <= Cabs (p - p')%C)%R) -> (0 < d)%R -> (0 < v)%R -> (v * ln (INR (2 ^ (num_bits md - 1))) < d * (d - 2 * r))%R ->
    exists s : list C, modulate md bs = Ok s /\ forall ys : list C, Forall2 (fun x y => (Cabs (y - x)%C <= r)%R) s ys ->
      exists out : list R, demodulate md ys Soft v = Ok (inr out) /\ length out = length bs /\
        forall i, (i < length bs)%nat -> (nth i bs 0 = 1 -> (0 < nth i out 0)%R) /\ (nth i bs 0 = 0 -> (nth i out 0 < 0)%R).
Proof.
  intros c g md bs d r v E ND Hc Hb Hne Hmod Hd Hd0 Hv Hm. destruct (init_ready c g md E ND Hc) as (HW & NDp & Hn & HP). destruct (roundtrip md bs 0%R HW NDp Hn Hb Hne) as (s & E1 & _). exists s. split; [exact E1|]. intros ys HF.
  apply (soft_signs md bs s ys v d r); try assumption. intros p p' Hp Hp'. apply Hd; eapply Permutation_in; eassumption.
Qed.

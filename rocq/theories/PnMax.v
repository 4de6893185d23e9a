(* Maximal-length PN sequences: windows, balance, autocorrelation. *)
From Verif Require Import Base SeqModel SeqProofs.
From Coq Require Import Permutation.

(* no shorter period: for every 1 <= p < 2^order - 1 some long enough output is not p-periodic *)
Definition maximal (order : nat) (seed mask : list Z) : Prop :=
  forall p, (1 <= p < 2 ^ order - 1)%nat ->
    exists len out t, pnsequence order seed mask len = Ok out /\ (t + p < len)%nat /\ nth (t + p) out 0 <> nth t out 0.

(* a mask with last tap 1, and a seed that is not all zero *)
Definition pn_params (order : nat) (seed mask : list Z) : Prop :=
  (1 <= order)%nat /\ length seed = order /\ length mask = order /\ bits seed /\ bits mask /\ last mask 0 = 1 /\ exists i, nth i seed 0 = 1.

Lemma Zsum_perm a b : Permutation a b -> Zsum a = Zsum b.
Proof. induction 1; rewrite ?Zsum_cons; lia. Qed.

Lemma state_add mask sr a t : lfsr_state mask (lfsr_state mask sr a) t = lfsr_state mask sr (a + t).
Proof. induction t as [|t IH]; [rewrite Nat.add_0_r; reflexivity|]. rewrite Nat.add_succ_r. cbn [lfsr_state]. rewrite IH. reflexivity. Qed.

Lemma all_bits_shape n w : In w (all_bits n) -> length w = n.
Proof.
  revert w. induction n as [|n IH]; intros w H; [destruct H as [<-|[]]; reflexivity|]. cbn [all_bits] in H. apply in_app_or in H.
  destruct H as [H|H]; apply in_map_iff in H; destruct H as (v & <- & Hv); cbn [length]; f_equal; apply IH; exact Hv.
Qed.
Lemma nz_bits_shape n w : In w (nz_bits n) -> length w = n.
Proof.
  revert w. induction n as [|n IH]; intros w H; [destruct H|]. cbn [nz_bits] in H. apply in_app_or in H.
  destruct H as [H|H]; apply in_map_iff in H; destruct H as (v & <- & Hv); cbn [length]; f_equal; [apply IH; exact Hv|apply all_bits_shape; exact Hv].
Qed.
Lemma last_cons_ne (x : Z) w : w <> [] -> last (x :: w) 0 = last w 0.
Proof. destruct w; [contradiction|reflexivity]. Qed.
Lemma sum_last_cons x l : (forall w, In w l -> w <> []) -> Zsum (map (fun w => last w 0) (map (cons x) l)) = Zsum (map (fun w => last w 0) l).
Proof. intros H. rewrite map_map. f_equal. apply map_ext_in. intros w Hw. apply last_cons_ne, H, Hw. Qed.
Lemma all_bits_sum n : Zsum (map (fun w => last w 0) (all_bits (S n))) = 2 ^ Z.of_nat n.
Proof.
  induction n as [|n IH]; [reflexivity|]. change (all_bits (S (S n))) with (map (cons 0) (all_bits (S n)) ++ map (cons 1) (all_bits (S n))).
  assert (N : forall w, In w (all_bits (S n)) -> w <> []) by (intros w Hw ->; apply all_bits_shape in Hw; discriminate).
  rewrite map_app, Zsum_app, !sum_last_cons, IH by exact N. rewrite Nat2Z.inj_succ, Z.pow_succ_r by lia. lia.
Qed.
Lemma nz_bits_sum n : Zsum (map (fun w => last w 0) (nz_bits (S n))) = 2 ^ Z.of_nat n.
Proof.
  induction n as [|n IH]; [reflexivity|]. change (nz_bits (S (S n))) with (map (cons 0) (nz_bits (S n)) ++ map (cons 1) (all_bits (S n))).
  assert (N : forall w, In w (all_bits (S n)) -> w <> []) by (intros w Hw ->; apply all_bits_shape in Hw; discriminate).
  assert (N' : forall w, In w (nz_bits (S n)) -> w <> []) by (intros w Hw ->; apply nz_bits_shape in Hw; discriminate).
  rewrite map_app, Zsum_app, !sum_last_cons, IH, all_bits_sum by assumption. rewrite Nat2Z.inj_succ, Z.pow_succ_r by lia. lia.
Qed.

Section Max.
Context (mask : list Z) (order : nat).
Hypothesis Ho : (1 <= order)%nat.
Hypothesis Hm : length mask = order.
Hypothesis Bm : bits mask.
Hypothesis Hlast : last mask 0 = 1.
Local Notation N := (2 ^ order - 1)%nat.
Local Notation st := (lfsr_state mask).

Definition good (sr : list Z) : Prop := length sr = order /\ bits sr /\ sr <> repeat 0 order.
Lemma good_ne sr : good sr -> sr <> []. Proof. intros (H & _ & _) ->. cbn in H. lia. Qed.
Lemma good_step_inj a b : good a -> good b -> lfsr_step mask a = lfsr_step mask b -> a = b.
Proof. intros (A1 & A2 & A3) (B1 & B2 & B3). apply lfsr_step_inj; try assumption; try congruence. intros ->. cbn in A1. lia. Qed.
Lemma good_st sr t : good sr -> good (st sr t).
Proof.
  intros H. pose proof (good_ne sr H) as Hne. destruct H as (H1 & H2 & H3).
  assert (Q : forall t, length (st sr t) = order /\ bits (st sr t)) by (intros u; split; [rewrite lfsr_state_length by exact Hne; exact H1|apply lfsr_state_bits; exact H2]).
  split; [apply Q|]. split; [apply Q|]. induction t as [|t IH]; [exact H3|]. cbn [lfsr_state]. intros E. apply IH.
  destruct order as [|n]; [lia|]. rewrite <- (lfsr_zero mask n) in E. apply (lfsr_step_inj mask) in E; try assumption; try apply Q; try apply bits_repeat0.
  - rewrite repeat_length. apply Q.
  - rewrite Hm. symmetry. apply Q.
  - intros Hn. destruct (Q t) as [Q1 _]. rewrite Hn in Q1. discriminate.
Qed.
Lemma st_cancel sr i t : good sr -> st sr (i + t) = st sr i -> st sr t = sr.
Proof.
  intros H. induction i as [|i IH]; intros E; [exact E|]. apply IH. cbn [Nat.add lfsr_state] in E.
  apply good_step_inj in E; [exact E| |]; apply good_st; exact H.
Qed.

Definition noret (sr : list Z) : Prop := forall d, (1 <= d < N)%nat -> st sr d <> sr.

Lemma noret_period sr : good sr -> noret sr -> forall t, st sr (t + N) = st sr t.
Proof.
  intros H Hn. destruct (lfsr_period mask sr) as (p & Hp & Hper); try assumption; try apply H; try apply good_ne; try assumption.
  - rewrite Hm. symmetry. apply H.
  - destruct H as (H1 & _ & H3). rewrite H1. exact H3.
  - destruct H as (H1 & H'). rewrite H1 in Hp. destruct (Nat.eq_dec p N) as [->|Hne]; [exact Hper|]. exfalso. apply (Hn p ltac:(lia)). apply (Hper 0%nat).
Qed.
Lemma noret_mod sr t : good sr -> noret sr -> st sr t = st sr (t mod N).
Proof.
  intros H Hn. assert (HN : (1 <= N)%nat) by (pose proof (Nat.pow_le_mono_r 2 1 order ltac:(lia) Ho); cbn [Nat.pow] in *; lia).
  rewrite (Nat.div_mod t N) at 1 by lia. rewrite Nat.add_comm. generalize (t / N)%nat. intros q. induction q as [|q IH]; [rewrite Nat.mul_0_r, Nat.add_0_r; reflexivity|].
  rewrite <- IH, <- (noret_period sr H Hn (t mod N + N * q)). f_equal. lia.
Qed.
Lemma noret_inj sr i j : good sr -> noret sr -> (i < N)%nat -> (j < N)%nat -> st sr i = st sr j -> i = j.
Proof.
  intros H Hn. assert (W : forall i j, (i < j)%nat -> (j < N)%nat -> st sr i = st sr j -> False).
  { intros a b Hab Hb E. apply (Hn (b - a)%nat ltac:(lia)). apply (st_cancel sr a); [exact H|]. rewrite E. f_equal. lia. }
  intros Hi Hj E. destruct (Nat.lt_trichotomy i j) as [L|[L|L]]; [exfalso; eapply W; eauto|exact L|exfalso; eapply W; eauto].
Qed.
Lemma noret_perm sr : good sr -> noret sr -> Permutation (map (st sr) (seq 0 N)) (nz_bits order).
Proof.
  intros H Hn. apply NoDup_Permutation_bis.
  - assert (G : forall a m, (a + m <= N)%nat -> NoDup (map (st sr) (seq a m))).
    { intros a m. revert a. induction m as [|m IH]; intros a Ham; [constructor|]. cbn [seq map]. constructor; [|apply IH; lia].
      intros Hin. apply in_map_iff in Hin. destruct Hin as (j & E & Hj). apply in_seq in Hj. apply noret_inj in E; try assumption; lia. }
    apply G. lia.
  - rewrite map_seq_length, nz_bits_length. lia.
  - intros w Hw. apply in_map_iff in Hw. destruct Hw as (t & <- & _). pose proof (good_st sr t H) as (G1 & G2 & G3). rewrite <- G1 at 1. apply nz_bits_In; [exact G2|rewrite G1; exact G3].
Qed.
Lemma noret_reach sr w : good sr -> noret sr -> good w -> exists t, (t < N)%nat /\ st sr t = w.
Proof.
  intros H Hn (W1 & W2 & W3). assert (Hin : In w (map (st sr) (seq 0 N))).
  { eapply Permutation_in; [apply Permutation_sym, noret_perm; assumption|]. rewrite <- W1. apply nz_bits_In; [exact W2|rewrite W1; exact W3]. }
  apply in_map_iff in Hin. destruct Hin as (t & E & Ht). apply in_seq in Ht. exists t. split; [lia|exact E].
Qed.
Lemma noret_any sr w : good sr -> noret sr -> good w -> noret w.
Proof.
  intros H Hn Hw d Hd E. destruct (noret_reach sr w H Hn Hw) as (t & Ht & <-). rewrite state_add in E. apply (Hn d Hd). exact (st_cancel sr t d H E).
Qed.
Lemma noret_sum sr : good sr -> noret sr -> Zsum (map (fun t => last (st sr t) 0) (seq 0 N)) = 2 ^ (Z.of_nat order - 1).
Proof.
  intros H Hn. rewrite <- (map_map (st sr) (fun w => last w 0)). rewrite (Zsum_perm _ (map (fun w => last w 0) (nz_bits order))).
  - destruct order as [|n]; [lia|]. rewrite nz_bits_sum. f_equal. lia.
  - apply Permutation_map. apply noret_perm; assumption.
Qed.
End Max.

Lemma good_of order seed mask : pn_params order seed mask -> good order seed.
Proof. intros (Ho & H1 & H2 & H3 & H4 & H5 & i & Hi). split; [exact H1|]. split; [exact H3|]. intros ->. rewrite nth_repeat_same in Hi. discriminate. Qed.
Lemma noret_of order seed mask : pn_params order seed mask -> maximal order seed mask -> noret mask order seed.
Proof.
  intros (Ho & H1 & H2 & _) HM d Hd E. destruct (HM d Hd) as (len & out & t & E1 & Ht & Hne). rewrite pnsequence_ok in E1 by assumption. injection E1 as <-.
  apply Hne. rewrite !nth_map_seq by lia. cbn beta. f_equal. rewrite Nat.add_comm, <- state_add, E. reflexivity.
Qed.

Ltac start := intros order seed mask; intros P M; pose proof (good_of _ _ _ P) as G; pose proof (noret_of _ _ _ P M) as NR; pose proof P as (Ho & Hs & Hm & Bs & Bm & Hl & Hex).

Lemma pnmax_period : forall order seed mask, pn_params order seed mask -> maximal order seed mask ->
  forall len out t, pnsequence order seed mask len = Ok out -> (t + (2 ^ order - 1) < len)%nat -> nth (t + (2 ^ order - 1)) out 0 = nth t out 0.
Proof.
  start. intros len out t E Ht. rewrite pnsequence_ok in E by assumption. injection E as <-. rewrite !nth_map_seq by lia.
  rewrite (noret_period mask order Ho Hm Bm Hl seed G NR). reflexivity.
Qed.

Lemma window_state order seed mask len out t w : pn_params order seed mask -> pnsequence order seed mask len = Ok out -> (t + order <= len)%nat -> length w = order ->
  slice out t (t + order) = w <-> lfsr_state mask seed t = rev w.
Proof.
  intros (Ho & Hs & Hm & Bs & Bm & Hl & Hex) E Ht Hw. rewrite pnsequence_ok in E by assumption. injection E as <-.
  assert (Hne : seed <> []) by (intros ->; cbn in Hs; lia).
  set (out := map _ _). assert (Lo : length out = len) by (unfold out; apply map_seq_length).
  assert (Ls : length (slice out t (t + order)) = order) by (rewrite slice_length by lia; lia).
  assert (Key : forall i, (i < order)%nat -> nth i (slice out t (t + order)) 0 = nth (order - 1 - i) (lfsr_state mask seed t) 0).
  { intros i Hi. rewrite slice_nth by lia. unfold out. rewrite nth_map_seq by lia. rewrite (lfsr_cell mask seed Hne i t (order - 1 - i)) by lia. reflexivity. }
  split; intros H.
  - apply nth_ext_Z; [rewrite lfsr_state_length, rev_length by exact Hne; lia|]. rewrite lfsr_state_length, Hs by exact Hne. intros i Hi.
    rewrite rev_nth by lia. rewrite Hw, <- H. rewrite Key by lia. f_equal. lia.
  - apply nth_ext_Z; [lia|]. rewrite Ls. intros i Hi. rewrite Key by exact Hi. rewrite H, rev_nth by lia. rewrite Hw. f_equal. lia.
Qed.

Lemma pnmax_windows : forall order seed mask, pn_params order seed mask -> maximal order seed mask ->
  forall len out w, pnsequence order seed mask len = Ok out -> (2 ^ order - 1 + order - 1 <= len)%nat ->
    length w = order -> bits w -> w <> repeat 0 order ->
    exists t, (t < 2 ^ order - 1)%nat /\ slice out t (t + order) = w /\
      forall t', (t' < 2 ^ order - 1)%nat -> slice out t' (t' + order) = w -> t' = t.
Proof.
  start. intros len out w E Hlen Hw Bw Hz.
  assert (Gw : good order (rev w)).
  { split; [rewrite rev_length; exact Hw|]. split; [apply Forall_rev; exact Bw|]. intros Er. apply Hz. rewrite <- (rev_involutive w), Er. clear. induction order as [|n IH]; [reflexivity|]. cbn [repeat rev].
    rewrite IH. symmetry. apply repeat_cons. }
  destruct (noret_reach mask order Ho Hm Bm Hl seed (rev w) G NR Gw) as (t & Ht & Est). exists t. split; [exact Ht|]. split.
  - apply (window_state order seed mask len); try assumption. lia.
  - intros t' Ht' Es. apply (window_state order seed mask len) in Es; try assumption; [|lia].
    apply (noret_inj mask order Ho Hm Bm Hl seed); try assumption. congruence.
Qed.

Lemma pnmax_balance : forall order seed mask, pn_params order seed mask -> maximal order seed mask ->
  forall len out a, pnsequence order seed mask len = Ok out -> (a + (2 ^ order - 1) <= len)%nat ->
    Zsum (slice out a (a + (2 ^ order - 1))) = 2 ^ (Z.of_nat order - 1).
Proof.
  start. intros len out a E Ha. rewrite pnsequence_ok in E by assumption. injection E as <-.
  pose proof (good_st mask order Ho Hm Bm Hl seed a G) as Ga. rewrite <- (noret_sum mask order Ho Hm Bm Hl (lfsr_state mask seed a) Ga).
  - f_equal. apply nth_ext_Z; [rewrite slice_length, map_seq_length by (rewrite ?map_seq_length; lia); lia|]. rewrite slice_length by (rewrite map_seq_length; lia). intros i Hi.
    rewrite slice_nth by lia. rewrite !nth_map_seq by lia. rewrite state_add. reflexivity.
  - apply (noret_any mask order Ho Hm Bm Hl seed); assumption.
Qed.

Lemma pnmax_autocorrelation : forall order seed mask, pn_params order seed mask -> maximal order seed mask ->
  forall len out tau, pnsequence order seed mask len = Ok out -> (2 ^ order - 1 + tau <= len)%nat ->
    Zsum (map (fun t => (1 - 2 * nth t out 0) * (1 - 2 * nth (t + tau) out 0)) (seq 0 (2 ^ order - 1))) =
      if (tau mod (2 ^ order - 1) =? 0)%nat then 2 ^ Z.of_nat order - 1 else -1.
Proof.
  start. intros len out tau E Hlen. rewrite pnsequence_ok in E by assumption. injection E as <-.
  set (N := (2 ^ order - 1)%nat) in *. assert (HN : (1 <= N)%nat) by (unfold N; pose proof (Nat.pow_le_mono_r 2 1 order ltac:(lia) Ho); cbn [Nat.pow] in *; lia).
  assert (HNZ : Z.of_nat N = 2 ^ Z.of_nat order - 1) by (unfold N in *; rewrite Nat2Z.inj_sub by lia; rewrite Nat2Z.inj_pow; lia).
  assert (Hne : seed <> []) by (intros ->; cbn in Hs; lia).
  set (s := fun t => last (lfsr_state mask seed t) 0). assert (Bst : forall t, is_bit (s t)) by (intros t; apply last_bit, lfsr_state_bits, Bs).
  assert (C1 : forall l : list nat, Zsum (map (fun _ => 1) l) = Z.of_nat (length l)) by (induction l as [|x l IH]; [reflexivity|]; cbn [map length]; rewrite Zsum_cons, IH; lia).
  destruct (Nat.eqb_spec (tau mod N) 0) as [Ez|Enz].
  - transitivity (Zsum (map (fun _ => 1) (seq 0 N))); [|rewrite C1, seq_length; exact HNZ]. f_equal. apply map_ext_seq. intros t Ht. rewrite !nth_map_seq by lia.
    assert (Et : lfsr_state mask seed (t + tau) = lfsr_state mask seed t).
    { pose proof (noret_mod mask order Ho Hm Bm Hl seed tau G NR) as Hmod. fold N in Hmod. rewrite Ez in Hmod. cbn [lfsr_state] in Hmod. rewrite Nat.add_comm, <- state_add, Hmod. reflexivity. }
    assert (Et2 : s (t + tau)%nat = s t) by (unfold s; rewrite Et; reflexivity). rewrite Et2. destruct (Bst t) as [-> | ->]; reflexivity.
  - set (sr2 := xorl seed (lfsr_state mask seed tau)).
    assert (Hl2 : length seed = length (lfsr_state mask seed tau)) by (rewrite lfsr_state_length by exact Hne; reflexivity).
    assert (G2 : good order sr2).
    { split; [unfold sr2; rewrite xorl_length; [exact Hs|exact Hl2]|]. split; [apply xorl_bits|].
      unfold sr2. clearbody s. clear sr2. rewrite (noret_mod mask order Ho Hm Bm Hl seed tau G NR) in Hl2 |- *. fold N in Hl2 |- *. intros Ex.
      apply (NR (tau mod N)%nat); [pose proof (Nat.mod_upper_bound tau N ltac:(lia)); fold N; lia|].
      symmetry. apply nth_ext_Z; [exact Hl2|]. intros i Hi. pose proof (f_equal (fun l => nth i l 0) Ex) as Ei. cbn beta in Ei.
      rewrite xorl_nth, nth_repeat_same in Ei by exact Hl2.
      pose proof (bits_nth _ i Bs) as B1. pose proof (bits_nth _ i (lfsr_state_bits mask seed (tau mod N) Bs)) as B2.
      destruct B1 as [E1|E1], B2 as [E2|E2]; rewrite E1, E2 in *; try reflexivity; discriminate. }
    pose proof (noret_sum mask order Ho Hm Bm Hl sr2 G2 (noret_any mask order Ho Hm Bm Hl seed sr2 G NR G2)) as HS. fold N in HS.
    assert (HX : forall t, last (lfsr_state mask sr2 t) 0 = (s t + s (t + tau)%nat) mod 2).
    { intros t. unfold sr2. rewrite lfsr_state_linear; try assumption; [|apply lfsr_state_bits; exact Bs|congruence].
      rewrite state_add. unfold s. rewrite !last_nth. rewrite xorl_length by (rewrite !lfsr_state_length by exact Hne; reflexivity).
      rewrite xorl_nth by (rewrite !lfsr_state_length by exact Hne; reflexivity). rewrite !lfsr_state_length by exact Hne. rewrite (Nat.add_comm tau t). reflexivity. }
    assert (HF : forall m a, (a + m <= N)%nat -> Zsum (map (fun t => (1 - 2 * nth t (map s (seq 0 len)) 0) * (1 - 2 * nth (t + tau) (map s (seq 0 len)) 0)) (seq a m)) =
      Z.of_nat m - 2 * Zsum (map (fun t => last (lfsr_state mask sr2 t) 0) (seq a m))).
    { induction m as [|m IH]; intros a Ham; [reflexivity|]. cbn [seq map]. rewrite !Zsum_cons, IH by lia. rewrite HX, !nth_map_seq by lia.
      destruct (Bst a) as [-> | ->], (Bst (a + tau)%nat) as [-> | ->]; [change ((0 + 0) mod 2) with 0|change ((0 + 1) mod 2) with 1|change ((1 + 0) mod 2) with 1|change ((1 + 1) mod 2) with 0]; lia. }
    fold s. rewrite HF by lia. rewrite HS, HNZ. replace (Z.of_nat order) with (Z.succ (Z.of_nat order - 1)) at 1 by lia. rewrite Z.pow_succ_r by lia. lia.
Qed.

Lemma pnmax_any_seed : forall order seed mask, pn_params order seed mask -> maximal order seed mask ->
  forall seed', length seed' = order -> bits seed' -> (exists i, nth i seed' 0 = 1) ->
    maximal order seed' mask /\
    exists a, (a < 2 ^ order - 1)%nat /\ forall len out out' t, pnsequence order seed mask (a + len) = Ok out -> pnsequence order seed' mask len = Ok out' -> (t < len)%nat -> nth t out' 0 = nth (a + t) out 0.
Proof.
  start. intros seed' Ls' Bs' (i & Hi).
  assert (G' : good order seed') by (split; [exact Ls'|]; split; [exact Bs'|]; intros ->; rewrite nth_repeat_same in Hi; discriminate).
  assert (Hne : seed <> []) by (intros ->; cbn in Hs; lia).
  destruct (noret_reach mask order Ho Hm Bm Hl seed seed' G NR G') as (a & Ha & Ea). split.
  - intros p Hp. destruct (M p Hp) as (len & out & t & E & Ht & Hd).
    pose proof (noret_period mask order Ho Hm Bm Hl seed G NR) as Hper. set (N := (2 ^ order - 1)%nat) in *.
    exists (len + N)%nat. eexists. exists (t + (N - a))%nat. split; [apply pnsequence_ok; assumption|]. split; [lia|].
    rewrite pnsequence_ok in E by assumption. injection E as <-. rewrite !nth_map_seq in Hd by lia. rewrite !nth_map_seq by lia. rewrite <- Ea, !state_add.
    replace (a + (t + (N - a) + p))%nat with (t + p + N)%nat by lia. replace (a + (t + (N - a)))%nat with (t + N)%nat by lia. rewrite !Hper. exact Hd.
  - exists a. split; [exact Ha|]. intros len out out' t E E' Ht. rewrite pnsequence_ok in E, E' by assumption. injection E as <-. injection E' as <-.
    rewrite !nth_map_seq by lia. rewrite <- Ea, state_add. reflexivity.
Qed.

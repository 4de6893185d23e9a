(* Received values whose signs agree with a code word of a linear systematic code give posterior ratios with the
   right signs; turbo decoding of such values returns the message. *)
From Coq Require Import Reals Lra.
From Verif Require Import Base UtilModel UtilProofs SeqModel SeqProofs TrellisModel TrellisSpec ConvProofs ConvCode ViterbiModel ViterbiSpec LinksProofs TurboModel TurboSpec TurboProofs TurboMap.
Local Open Scope R_scope.

Definition sgn (b : bool) : R := if b then -1 else 1.
Lemma sgn_xor a b : sgn (xorb a b) = sgn a * sgn b. Proof. destruct a, b; cbn; lra. Qed.
Lemma sgn_sq a : sgn a * sgn a = 1. Proof. destruct a; cbn; lra. Qed.

(* linear functionals on bit sequences of length n *)
Definition lin (n : nat) (l : list Z -> bool) : Prop := forall a b, length a = n -> length b = n -> bits a -> bits b -> l (xorl a b) = xorb (l a) (l b).

Lemma all_bits_in n : forall us, In us (all_bits n) <-> length us = n /\ bits us.
Proof.
  induction n as [|n IH]; intros us; cbn [all_bits].
  - split; [intros [<-|[]]; split; [reflexivity|constructor]|]. intros [H _]. left. destruct us; [reflexivity|discriminate].
  - rewrite in_app_iff, !in_map_iff. split.
    + intros [(x & <- & H)|(x & <- & H)]; apply IH in H; destruct H as [H1 H2]; (split; [cbn [length]; lia|constructor; [unfold is_bit; lia|exact H2]]).
    + intros [Hl Hb]. destruct us as [|u us]; [discriminate|]. inversion Hb; subst. cbn [length] in Hl. destruct H1 as [-> | ->]; [left|right]; exists us; (split; [reflexivity|apply IH; split; [lia|assumption]]).
Qed.

Lemma xorl_cons_b a b x y : xorl (a :: x) (b :: y) = Z.lxor a b :: xorl x y. Proof. reflexivity. Qed.
Lemma xorl_zeros_l m n : length m = n -> xorl (repeat 0%Z n) m = m.
Proof. revert n. induction m as [|x m IH]; intros [|n] H; try discriminate; [reflexivity|]. cbn [repeat]. rewrite xorl_cons_b, IH by (cbn in H; lia). reflexivity. Qed.

Lemma lin_tail n l : lin (S n) l -> lin n (fun us => l (0%Z :: us)).
Proof.
  intros H a b Ha Hb Ba Bb. change (0%Z :: xorl a b) with (xorl (0%Z :: a) (0%Z :: b)). apply H; try (cbn [length]; lia); constructor; try assumption; left; reflexivity.
Qed.
Lemma lin_split n l us : lin (S n) l -> length us = n -> bits us -> l (1%Z :: us) = xorb (l (1%Z :: repeat 0%Z n)) (l (0%Z :: us)).
Proof.
  intros H Hl Hb. rewrite <- H; try (cbn [length]; rewrite ?repeat_length; lia).
  - rewrite xorl_cons_b, xorl_zeros_l by exact Hl. reflexivity.
  - constructor; [right; reflexivity|apply bits_repeat0].
  - constructor; [left; reflexivity|exact Hb].
Qed.

Lemma base n : forall l m, lin n l -> length m = n -> bits m -> 0 <= sgn (l m) * total (fun us => sgn (l us)) (all_bits n).
Proof.
  induction n as [|n IH]; intros l m Hlin Hm Hb.
  - destruct m; [|discriminate]. cbn [all_bits]. rewrite total_cons, total_nil, Rplus_0_r, sgn_sq. lra.
  - destruct m as [|x m]; [discriminate|]. cbn [length] in Hm. injection Hm as Hm. subst n. inversion Hb as [|? ? Hx Hb']; subst. cbn [all_bits]. rewrite total_app, !total_map.
    rewrite (total_ext (fun us => sgn (l (1%Z :: us))) (fun us => sgn (l (1%Z :: repeat 0%Z (length m))) * sgn (l (0%Z :: us)))).
    2:{ intros us Hus. apply all_bits_in in Hus. destruct Hus as [Hlu Hbu]. rewrite (lin_split _ l us Hlin) by (try lia; assumption). apply sgn_xor. }
    rewrite total_mul. set (T := total _ _). specialize (IH _ m (lin_tail _ _ Hlin) eq_refl Hb'). cbn beta in IH. fold T in IH.
    destruct Hx as [-> | ->].
    + destruct (l (1%Z :: repeat 0%Z (length m))); unfold sgn in *; destruct (l (0%Z :: m)); lra.
    + rewrite (lin_split _ l m Hlin) by (try lia; assumption). rewrite sgn_xor.
      destruct (l (1%Z :: repeat 0%Z (length m))); unfold sgn in *; destruct (l (0%Z :: m)); lra.
Qed.

Definition factor := ((list Z -> bool) * (R * R))%type.
Definition fval (x : factor) (us : list Z) : R := fst (snd x) + snd (snd x) * sgn (fst x us).
Definition fprod (fs : list factor) (us : list Z) : R := fold_right Rmult 1 (map (fun x => fval x us) fs).
Definition fok (n : nat) (m : list Z) (x : factor) : Prop := lin n (fst x) /\ 0 <= snd (snd x) * sgn (fst x m) /\ Rabs (snd (snd x)) < fst (snd x).

Lemma fval_pos n m x us : fok n m x -> 0 < fval x us.
Proof. intros (_ & _ & H). unfold fval. apply Rabs_def2 in H. unfold sgn. destruct (fst x us); lra. Qed.
Lemma fprod_pos n m fs us : Forall (fok n m) fs -> 0 < fprod fs us.
Proof. intros H. induction H as [|x fs Hx H IH]; [cbn; lra|]. unfold fprod. cbn [map fold_right]. apply Rmult_lt_0_compat; [eapply fval_pos; exact Hx|exact IH]. Qed.

Lemma lin_xor n l f : lin n l -> lin n f -> lin n (fun us => xorb (l us) (f us)).
Proof. intros H1 H2 a b Ha Hb Ba Bb. rewrite H1, H2 by assumption. destruct (l a), (l b), (f a), (f b); reflexivity. Qed.

Lemma split_factor n (l : list Z -> bool) x fs :
  total (fun us => sgn (l us) * fprod (x :: fs) us) (all_bits n) =
  fst (snd x) * total (fun us => sgn (l us) * fprod fs us) (all_bits n) + snd (snd x) * total (fun us => sgn (xorb (l us) (fst x us)) * fprod fs us) (all_bits n).
Proof. rewrite <- !total_mul, <- total_add. apply total_ext. intros us _. unfold fprod. cbn [map fold_right]. unfold fval. rewrite sgn_xor. ring. Qed.

Lemma ferro n m fs : length m = n -> bits m -> Forall (fok n m) fs -> forall l, lin n l ->
  0 <= sgn (l m) * total (fun us => sgn (l us) * fprod fs us) (all_bits n).
Proof.
  intros Hm Hb H. induction H as [|x fs Hx H IH]; intros l Hl.
  - rewrite (total_ext _ (fun us => sgn (l us))) by (intros; unfold fprod; cbn; lra). apply base; assumption.
  - rewrite split_factor. destruct Hx as (Hf & Hs & HA). pose proof (Rabs_pos (snd (snd x))).
    pose proof (IH l Hl) as H1. pose proof (IH _ (lin_xor _ _ _ Hl Hf)) as H2. cbn beta in H2. rewrite sgn_xor in H2.
    set (T1 := total _ _) in H1 |- *. set (T2 := total _ _) in H2 |- *.
    replace (sgn (l m) * (fst (snd x) * T1 + snd (snd x) * T2)) with (fst (snd x) * (sgn (l m) * T1) + (snd (snd x) * sgn (fst x m)) * (sgn (l m) * sgn (fst x m) * T2)).
    + apply Rplus_le_le_0_compat; apply Rmult_le_pos; try assumption. lra.
    + transitivity (fst (snd x) * (sgn (l m) * T1) + snd (snd x) * (sgn (fst x m) * sgn (fst x m)) * (sgn (l m) * T2)); [ring|]. rewrite sgn_sq. ring.
Qed.

Lemma ferro_strict n m fs l : length m = n -> bits m -> Forall (fok n m) fs -> lin n l ->
  (exists x, In x fs /\ 0 < snd (snd x) * sgn (fst x m) /\ forall us, length us = n -> bits us -> fst x us = l us) ->
  0 < sgn (l m) * total (fun us => sgn (l us) * fprod fs us) (all_bits n).
Proof.
  intros Hm Hb H Hl. induction H as [|x fs Hx H IH]; intros (y & Hy & Hpos & Heq); [destruct Hy|].
  rewrite split_factor. pose proof Hx as (Hf & Hs & HA). pose proof (Rabs_pos (snd (snd x))).
  pose proof (ferro n m fs Hm Hb H l Hl) as H1. pose proof (ferro n m fs Hm Hb H _ (lin_xor _ _ _ Hl Hf)) as H2. cbn beta in H2. rewrite sgn_xor in H2.
  set (T1 := total (fun us => sgn (l us) * fprod fs us) (all_bits n)) in *. set (T2 := total (fun us => sgn (xorb (l us) (fst x us)) * fprod fs us) (all_bits n)) in *.
  replace (sgn (l m) * (fst (snd x) * T1 + snd (snd x) * T2)) with (fst (snd x) * (sgn (l m) * T1) + (snd (snd x) * sgn (fst x m)) * (sgn (l m) * sgn (fst x m) * T2)).
  2:{ transitivity (fst (snd x) * (sgn (l m) * T1) + snd (snd x) * (sgn (fst x m) * sgn (fst x m)) * (sgn (l m) * T2)); [ring|]. rewrite sgn_sq. ring. }
  destruct Hy as [->|Hy].
  - apply Rplus_le_lt_0_compat; [apply Rmult_le_pos; lra|]. apply Rmult_lt_0_compat; [exact Hpos|]. rewrite (Heq m Hm Hb), sgn_sq, Rmult_1_l.
    unfold T2. rewrite (total_ext _ (fprod fs)).
    + apply total_pos; [|intros us _; eapply fprod_pos; exact H]. intros E. assert (Hin : In m (all_bits n)) by (apply all_bits_in; split; assumption). rewrite E in Hin. destruct Hin.
    + intros us Hus. apply all_bits_in in Hus. rewrite Heq by apply Hus. rewrite xorb_nilpotent. cbn [sgn]. lra.
  - apply Rplus_lt_le_0_compat; [|apply Rmult_le_pos; assumption]. apply Rmult_lt_0_compat; [lra|]. apply IH. exists y. split; [exact Hy|]. split; assumption.
Qed.

(* ---------------------------------------------------------------- factors of the weight *)
Definition bitfac (g : Z -> R) (f : list Z -> bool) : factor := (f, ((g 0%Z + g 1%Z) / 2, (g 0%Z - g 1%Z) / 2)).
Lemma bitfac_val g f us : fval (bitfac g f) us = g (Z.b2z (f us)).
Proof. unfold fval, bitfac. cbn [fst snd]. destruct (f us); cbn [sgn Z.b2z]; lra. Qed.
Lemma bitfac_ok n m g f : lin n f -> 0 < g 0%Z -> 0 < g 1%Z -> (f m = true -> g 0%Z <= g 1%Z) -> (f m = false -> g 1%Z <= g 0%Z) -> fok n m (bitfac g f).
Proof.
  intros Hl H0 H1 Ht Hf. split; [exact Hl|]. cbn [bitfac fst snd]. split.
  - destruct (f m); cbn [sgn]; [specialize (Ht eq_refl)|specialize (Hf eq_refl)]; lra.
  - apply Rabs_def1; lra.
Qed.

Lemma gauss_le v r : 0 < v -> (0 <= r -> gauss v r 0 <= gauss v r 1) /\ (r <= 0 -> gauss v r 1 <= gauss v r 0) /\ (0 < r -> gauss v r 0 < gauss v r 1) /\ (r < 0 -> gauss v r 1 < gauss v r 0).
Proof.
  intros Hv. unfold gauss. cbn [Z.mul Z.sub Z.add Z.opp Pos.mul Z.pos_sub Pos.pred_double]. change (IZR (2 * 0 - 1)) with (-1). change (IZR (2 * 1 - 1)) with 1.
  assert (Hi : 0 < / (2 * v)) by (apply Rinv_0_lt_compat; lra).
  assert (HL : forall a b, a <= b -> exp (a / (2 * v)) <= exp (b / (2 * v))).
  { intros a b H. destruct (Req_dec a b) as [->|]; [lra|]. left. apply exp_increasing. unfold Rdiv. apply Rmult_lt_compat_r; lra. }
  assert (HS : forall a b, a < b -> exp (a / (2 * v)) < exp (b / (2 * v))).
  { intros a b H. apply exp_increasing. unfold Rdiv. apply Rmult_lt_compat_r; lra. }
  repeat split; intros H; [apply HL|apply HL|apply HS|apply HS]; cbn [pow]; lra.
Qed.
Lemma prior_le l : (0 <= l -> prior l 0 <= prior l 1) /\ (l <= 0 -> prior l 1 <= prior l 0).
Proof.
  unfold prior. cbn [Z.eqb Pos.eqb]. assert (H : 0 < 1 + exp l) by (pose proof (exp_pos l); lra). assert (Hi : 0 < / (1 + exp l)) by (apply Rinv_0_lt_compat; exact H).
  unfold Rdiv. split; intros Hl; apply Rmult_le_compat_r; try lra; rewrite <- exp_0.
  - destruct Hl as [Hl|<-]; [left; apply exp_increasing; exact Hl|lra].
  - destruct Hl as [Hl| ->]; [left; apply exp_increasing; exact Hl|lra].
Qed.

Section Lin.
Variables (tr : Trellis) (v : R).
Hypotheses (HR : half_rate tr) (HS : systematic tr) (HLIN : linear tr) (Hv : 0 < v).
Local Notation nx := (entry (tr_next tr)).
Local Notation ou := (entry (tr_out tr)).
Local Notation inS s := (0 <= s < 2 ^ Z.of_nat (tr_M tr))%Z.

Lemma nx_in s u : inS s -> (0 <= u < 2)%Z -> inS (nx s u) /\ (0 <= ou s u < 4)%Z.
Proof. destruct HR as (Hk & Hn & _ & _ & V). rewrite Hk, Hn in V. intros Hs Hu. destruct (V s u Hs Hu) as (_ & H1 & _ & H2). split; [exact H1|exact H2]. Qed.
Lemma walk_in us : forall s, inS s -> bits us -> inS (walk nx s us).
Proof. induction us as [|u us IH]; intros s Hs Hb; [exact Hs|]. inversion Hb; subst. cbn [walk]. apply IH; [|assumption]. apply nx_in; [exact Hs|]. unfold is_bit in *. lia. Qed.

Lemma walk_lin us : forall us' s s', length us = length us' -> bits us -> bits us' -> inS s -> inS s' -> walk nx (Z.lxor s s') (xorl us us') = Z.lxor (walk nx s us) (walk nx s' us').
Proof.
  induction us as [|u us IH]; intros [|u' us'] s s' Hl Hb Hb' Hs Hs'; try discriminate; [reflexivity|]. rewrite xorl_cons_b. cbn [walk]. inversion Hb; subst. inversion Hb'; subst.
  assert (Hu : (0 <= u < 2)%Z) by (unfold is_bit in *; lia). assert (Hu' : (0 <= u' < 2)%Z) by (unfold is_bit in *; lia).
  rewrite (proj1 (HLIN s s' u u' Hs Hs' Hu Hu')). apply IH; [cbn in Hl; lia|assumption|assumption|apply nx_in; assumption|apply nx_in; assumption].
Qed.

(* the output word at time i *)
Definition oword (i : nat) (us : list Z) : Z := ou (walk nx 0 (firstn i us)) (nth i us 0%Z).
Lemma zero_inS : inS 0%Z. Proof. split; [lia|apply Z.pow_pos_nonneg; lia]. Qed.
Lemma firstn_xorl i : forall a b, firstn i (xorl a b) = xorl (firstn i a) (firstn i b).
Proof. induction i as [|i IH]; intros [|x a] [|y b]; try reflexivity. rewrite xorl_cons_b. cbn [firstn]. rewrite xorl_cons_b, IH. reflexivity. Qed.
Lemma oword_range i us : bits us -> (0 <= oword i us < 4)%Z.
Proof. intros Hb. apply nx_in; [apply walk_in; [apply zero_inS|apply bits_firstn; exact Hb]|]. pose proof (bits_nth us i Hb) as H. unfold is_bit in H. lia. Qed.
Lemma oword_xor i a b : length a = length b -> bits a -> bits b -> oword i (xorl a b) = Z.lxor (oword i a) (oword i b).
Proof.
  intros Hl Ha Hb. unfold oword. rewrite firstn_xorl, xorl_nth by exact Hl. change 0%Z with (Z.lxor 0 0) at 1.
  assert (Hfa : length (firstn i a) = length (firstn i b)) by (rewrite !firstn_length; lia).
  rewrite walk_lin; try assumption; try apply bits_firstn; try assumption; try apply zero_inS.
  pose proof (bits_nth a i Ha) as Hai. pose proof (bits_nth b i Hb) as Hbi. unfold is_bit in *.
  apply HLIN; try lia; apply walk_in; try apply zero_inS; apply bits_firstn; assumption.
Qed.
Lemma half_bit w : (0 <= w < 4)%Z -> (w / 2 = Z.b2z (Z.testbit w 1))%Z /\ (w mod 2 = Z.b2z (Z.testbit w 0))%Z.
Proof. intros H. assert (w = 0 \/ w = 1 \/ w = 2 \/ w = 3)%Z as [->|[->|[->| ->]]] by lia; split; reflexivity. Qed.

Lemma lin_out n i j : lin n (fun us => Z.testbit (oword i us) j).
Proof. intros a b Ha Hb Ba Bb. rewrite oword_xor by (try lia; assumption). apply Z.lxor_spec. Qed.
Lemma lin_bit n i : lin n (fun us => nth i us 0 =? 1)%Z.
Proof.
  intros a b Ha Hb Ba Bb. rewrite xorl_nth by lia. destruct (bits_nth a i Ba) as [-> | ->], (bits_nth b i Bb) as [-> | ->]; reflexivity.
Qed.
Lemma sys_bit i us : bits us -> (nth i us 0 =? 1)%Z = Z.testbit (oword i us) 1.
Proof.
  intros Hb. pose proof (bits_nth us i Hb) as H. destruct (half_bit _ (oword_range i us Hb)) as [E _]. unfold oword in *. rewrite HS in E.
  - set (tb := Z.testbit _ 1) in E |- *. clearbody tb. rewrite E. destruct tb; reflexivity.
  - apply walk_in; [apply zero_inS|apply bits_firstn; exact Hb].
  - unfold is_bit in H. lia.
Qed.

Lemma weight_prod : forall us sys par L s, weight_from tr v sys par L s us =
  fold_right Rmult 1 (map (fun i => gauss v (nth i sys 0) (ou (walk nx s (firstn i us)) (nth i us 0) / 2)%Z * gauss v (nth i par 0) (ou (walk nx s (firstn i us)) (nth i us 0) mod 2)%Z * prior (nth i L 0) (nth i us 0%Z)) (seq 0 (length us))).
Proof.
  induction us as [|u us IH]; intros sys par L s; [reflexivity|]. cbn [length seq map fold_right weight_from]. rewrite <- seq_shift, map_map, IH.
  cbn [firstn walk nth]. rewrite <- !(hd_skipn 0). cbn [skipn]. f_equal. f_equal. apply map_ext. intros i. destruct sys, par, L; cbn [tl nth]; destruct i; reflexivity.
Qed.

Definition facs (sys par L : list R) (n : nat) : list factor :=
  flat_map (fun i => [bitfac (gauss v (nth i sys 0)) (fun us => Z.testbit (oword i us) 1); bitfac (gauss v (nth i par 0)) (fun us => Z.testbit (oword i us) 0);
                      bitfac (prior (nth i L 0)) (fun us => nth i us 0 =? 1)%Z]) (seq 0 n).

Lemma weight_fprod sys par L us n : length us = n -> bits us -> weight tr v sys par L us = fprod (facs sys par L n) us.
Proof.
  intros Hl Hb. unfold weight. rewrite weight_prod, Hl. unfold facs, fprod. generalize (seq 0 n). intros l. induction l as [|i l IH]; [reflexivity|].
  cbn [flat_map map fold_right app]. rewrite IH, !bitfac_val. fold (oword i us).
  destruct (half_bit _ (oword_range i us Hb)) as [-> ->]. 
  replace (Z.b2z (nth i us 0 =? 1)%Z) with (nth i us 0%Z) by (destruct (bits_nth us i Hb) as [-> | ->]; reflexivity). ring.
Qed.

Variables (msg : list Z) (sys par : list R).
Hypotheses (Hb : bits msg) (Hsys : Forall2 carries sys msg).
Local Notation N := (length msg).
Hypothesis Hpar : forall i, (i < N)%nat -> agrees (nth i par 0) (nth i (parity tr msg) 0%Z).

Lemma parity_nth i : (i < N)%nat -> nth i (parity tr msg) 0%Z = (oword i msg mod 2)%Z.
Proof.
  intros Hi. unfold parity. rewrite words_emit, map_map. rewrite (nth_map_lt _ _ i 0%Z) by (rewrite emit_length; exact Hi). cbn [snd]. rewrite emit_nth by exact Hi. reflexivity.
Qed.
Lemma carries_nth i : (i < N)%nat -> carries (nth i sys 0) (nth i msg 0%Z).
Proof.
  clear -Hsys. revert i. induction Hsys as [|x b xs bs H HF IH]; intros i Hi; [cbn in Hi; lia|]. destruct i as [|i]; [exact H|]. cbn [nth]. apply IH; [exact HF|cbn in Hi; lia].
Qed.

Lemma facs_ok L : (forall i, (i < N)%nat -> agrees (nth i L 0) (nth i msg 0%Z)) -> Forall (fok N msg) (facs sys par L N).
Proof.
  intros HL. unfold facs. apply Forall_forall. intros x Hx. apply in_flat_map in Hx. destruct Hx as (i & Hi & Hx). apply in_seq in Hi.
  pose proof (carries_nth i ltac:(lia)) as Hc. pose proof (Hpar i ltac:(lia)) as Hp. rewrite parity_nth in Hp by lia. specialize (HL i ltac:(lia)).
  destruct (half_bit _ (oword_range i msg Hb)) as [E1 E2]. rewrite E2 in Hp. pose proof (sys_bit i msg Hb) as Es.
  destruct (gauss_le v (nth i sys 0) Hv) as (G1 & G2 & _). destruct (gauss_le v (nth i par 0) Hv) as (G3 & G4 & _). destruct (prior_le (nth i L 0)) as (P1 & P2).
  destruct Hx as [<-|[<-|[<-|[]]]]; apply bitfac_ok; try apply gauss_pos; try apply prior_pos; try apply lin_out; try apply lin_bit; intros Ht.
  - rewrite <- Es in Ht. apply G1. destruct Hc as [[_ H]|[H _]]; lra || lia.
  - rewrite <- Es in Ht. apply G2. destruct Hc as [[H _]|[_ H]]; lra || lia.
  - rewrite Ht in Hp. apply G3, Hp. reflexivity.
  - rewrite Ht in Hp. apply G4, Hp. reflexivity.
  - apply P1, HL. lia.
  - apply P2, HL. destruct (bits_nth msg i Hb); lia.
Qed.

Lemma evidence_split L t : total (fun us => sgn (nth t us 0 =? 1)%Z * weight tr v sys par L us) (all_bits N) = evidence tr v sys par L N t 0 - evidence tr v sys par L N t 1.
Proof.
  unfold evidence. assert (HF : Forall bits (all_bits N)) by (apply Forall_forall; intros us Hus; apply all_bits_in in Hus; apply Hus).
  induction HF as [|us l Hu HF IH]; [cbn [filter]; rewrite !total_nil; lra|]. rewrite total_cons, IH. cbn [filter].
  destruct (bits_nth us t Hu) as [-> | ->]; cbn [Z.eqb Pos.eqb sgn]; rewrite total_cons; lra.
Qed.

Lemma posterior_sign L t : (t < N)%nat -> (forall i, (i < N)%nat -> agrees (nth i L 0) (nth i msg 0%Z)) ->
  0 < sgn (nth t msg 0 =? 1)%Z * (evidence tr v sys par L N t 0 - evidence tr v sys par L N t 1).
Proof.
  intros Ht HL. rewrite <- evidence_split.
  rewrite (total_ext _ (fun us => sgn ((fun us => nth t us 0 =? 1)%Z us) * fprod (facs sys par L N) us)).
  2:{ intros us Hus. apply all_bits_in in Hus. rewrite (weight_fprod sys par L us N) by apply Hus. reflexivity. }
  apply (ferro_strict N msg _ (fun us => nth t us 0 =? 1)%Z eq_refl Hb (facs_ok L HL) (lin_bit N t)).
  eexists. split; [unfold facs; apply in_flat_map; exists t; split; [apply in_seq; lia|left; reflexivity]|]. cbn [bitfac fst snd]. split.
  - rewrite <- sys_bit by exact Hb. pose proof (carries_nth t Ht) as Hc. destruct (gauss_le v (nth t sys 0) Hv) as (_ & _ & G1 & G2).
    destruct Hc as [[-> H]|[-> H]]; cbn [Z.eqb Pos.eqb sgn]; [specialize (G1 H)|specialize (G2 H)]; lra.
  - intros us Hlu Hbu. symmetry. apply sys_bit. exact Hbu.
Qed.

Lemma SS_prior L L' k : forall t s h, (forall i, (t <= i < t + k)%nat -> nth i L 0 = nth i L' 0) -> SS tr v sys par L t k s h = SS tr v sys par L' t k s h.
Proof.
  induction k as [|k IH]; intros t s h H; [reflexivity|]. cbn [SS]. unfold pr. rewrite (H t) by lia. rewrite !(IH (S t)) by (intros i Hi; apply H; lia). reflexivity.
Qed.
Lemma X_prior L L' t b : (t < N)%nat -> (forall i, (i < N)%nat -> i <> t -> nth i L 0 = nth i L' 0) -> X tr v sys par L N t b = X tr v sys par L' N t b.
Proof.
  intros Ht H. unfold X. rewrite (SS_prior L L' t 0) by (intros i Hi; apply H; lia). apply SS_ext; [exact HR|apply zero_inS|]. intros s _. f_equal. unfold B. apply SS_prior. intros i Hi. apply H; lia.
Qed.

(* the extrinsic value of every bit has the sign of the bit *)
Lemma extrinsic_sign L t : length L = N -> (N <= length par)%nat -> (t < N)%nat -> (forall i, (i < N)%nat -> agrees (nth i L 0) (nth i msg 0%Z)) ->
  carries (ln (X tr v sys par L N t 1 / X tr v sys par L N t 0)) (nth t msg 0%Z).
Proof.
  intros HlL Hlp Ht HL. set (L' := upd L t 0).
  assert (HlL' : length L' = N) by (unfold L'; rewrite upd_length; exact HlL).
  assert (HX : forall b, X tr v sys par L N t b = X tr v sys par L' N t b).
  { intros b. apply X_prior; [exact Ht|]. intros i Hi Hne. unfold L'. rewrite nth_upd_neq by exact Hne. reflexivity. }
  assert (HL' : forall i, (i < N)%nat -> agrees (nth i L' 0) (nth i msg 0%Z)).
  { intros i Hi. unfold L'. rewrite nth_upd. destruct (_ && _); [split; intros; lra|apply HL; exact Hi]. }
  pose proof (posterior_sign L' t Ht HL') as HP.
  assert (Hls : length sys = N) by (clear -Hsys; induction Hsys; cbn; lia).
  assert (Hpt : forall b, is_bit b -> pr L' t b = / 2).
  { intros b Hbb. unfold pr, L'. rewrite nth_upd_eq by lia. unfold prior. rewrite exp_0. destruct Hbb as [-> | ->]; cbn; lra. }
  rewrite (evidence_X tr v sys par L' HR N Hls Hlp HlL' t 0 Ht (or_introl eq_refl)), (evidence_X tr v sys par L' HR N Hls Hlp HlL' t 1 Ht (or_intror eq_refl)) in HP.
  rewrite !Hpt in HP by (unfold is_bit; lia). rewrite !HX.
  pose proof (X_pos tr v sys par L' HR N Hls Hlp HlL' t 0 (or_introl eq_refl)) as P0. pose proof (X_pos tr v sys par L' HR N Hls Hlp HlL' t 1 (or_intror eq_refl)) as P1.
  set (x0 := X tr v sys par L' N t 0) in *. set (x1 := X tr v sys par L' N t 1) in *.
  assert (Hdiv : forall a b, 0 < b -> a / b * b = a) by (intros; field; lra).
  destruct (bits_nth msg t Hb) as [E|E]; rewrite E in *; cbn [Z.eqb Pos.eqb sgn] in HP.
  - right. split; [reflexivity|]. rewrite <- ln_1. apply ln_increasing; [apply Rdiv_lt_0_compat; assumption|]. apply (Rmult_lt_reg_r x0); [exact P0|]. rewrite Hdiv by exact P0. lra.
  - left. split; [reflexivity|]. rewrite <- ln_1. apply ln_increasing; [lra|]. apply (Rmult_lt_reg_r x0); [exact P0|]. rewrite Hdiv by exact P0. lra.
Qed.

Lemma map_signs L decode : length L = N -> (N <= length par)%nat -> (forall i, (i < N)%nat -> agrees (nth i L 0) (nth i msg 0%Z)) ->
  exists Lx dec, map_decode sys par tr v L decode = Ok (Lx, dec) /\ length Lx = N /\ length dec = N /\ Forall2 carries (minus Lx L) msg /\ (decode = true -> dec = msg).
Proof.
  intros HlL Hlp HL. assert (Hls : length sys = N) by (clear -Hsys; induction Hsys; cbn; lia).
  destruct (map_decode_ok tr v sys par L HR N Hls Hlp HlL decode) as (Lx & dec & E & H1 & H2 & H3 & H4).
  exists Lx, dec. split; [exact E|]. split; [exact H1|]. split; [exact H2|].
  assert (Hext : forall i, (i < N)%nat -> carries (ln (X tr v sys par L N i 1 / X tr v sys par L N i 0)) (nth i msg 0%Z)) by (intros i Hi; apply extrinsic_sign; assumption).
  split.
  - assert (Hlm : length (minus Lx L) = N) by (unfold minus; rewrite map_length, combine_length; lia).
    assert (Hc : forall i, (i < N)%nat -> carries (nth i (minus Lx L) 0) (nth i msg 0%Z)).
    { intros i Hi. unfold minus. rewrite (nth_map_lt _ (combine Lx L) i (0, 0)) by (rewrite combine_length; lia). rewrite combine_nth by lia. cbn [fst snd]. rewrite H3 by exact Hi.
      replace (nth i L 0 + ln (X tr v sys par L N i 1 / X tr v sys par L N i 0) - nth i L 0) with (ln (X tr v sys par L N i 1 / X tr v sys par L N i 0)) by ring. apply Hext. exact Hi. }
    clear -Hlm Hc. revert Hlm Hc. generalize (minus Lx L). induction msg as [|b bs IH]; intros l Hl Hc; destruct l as [|x l]; try discriminate; constructor.
    + apply (Hc 0%nat). cbn. lia.
    + apply IH; [cbn in Hl; lia|]. intros i Hi. apply (Hc (S i)). cbn. lia.
  - intros ->. apply nth_ext_Z; [exact H2|]. intros i Hi. rewrite H2 in Hi. rewrite H4 by exact Hi. specialize (Hext i Hi). specialize (HL i Hi).
    destruct Hext as [[Em Hx]|[Em Hx]]; rewrite Em in *; destruct (Rlt_dec _ _) as [Hr|Hr]; try reflexivity; exfalso.
    + apply Hr. pose proof (proj1 HL eq_refl). lra.
    + pose proof (proj2 HL eq_refl). lra.
Qed.
End Lin.

(* ---------------------------------------------------------------- turbo_decode *)
Lemma Forall2_nth_c (xs : list R) (bs : list Z) : Forall2 carries xs bs <-> length xs = length bs /\ forall i, (i < length bs)%nat -> carries (nth i xs 0) (nth i bs 0%Z).
Proof.
  split.
  - intros H. induction H as [|x b xs bs H HF [IH1 IH2]]; [split; [reflexivity|intros i Hi; cbn in Hi; lia]|]. split; [cbn; lia|]. intros [|i] Hi; [exact H|]. apply IH2. cbn in Hi. lia.
  - revert xs. induction bs as [|b bs IH]; intros [|x xs] [Hl H]; try discriminate; constructor; [apply (H 0%nat); cbn; lia|]. apply IH. split; [cbn in Hl; lia|]. intros i Hi. apply (H (S i)). cbn. lia.
Qed.
Lemma carries_agrees x b : carries x b -> agrees x b.
Proof. intros [[-> H]|[-> H]]; split; intros E; try discriminate; lra. Qed.

Lemma carries_interlv p xs bs : is_perm (length bs) p -> Forall2 carries xs bs ->
  interlv p xs = Ok (map (fun i => nth i xs 0) p) /\ Forall2 carries (map (fun i => nth i xs 0) p) (map (fun i => nth i bs 0%Z) p).
Proof.
  intros (Hl & _ & Hin) H. apply Forall2_nth_c in H. destruct H as [Hxl H]. split; [apply interlv_perm_ok; intros i Hi; rewrite Hxl; apply Hin; exact Hi|].
  apply Forall2_nth_c. rewrite !map_length. split; [reflexivity|]. intros i Hi. rewrite !(nth_map_lt _ p i 0%nat) by exact Hi. apply H, Hin, nth_In, Hi.
Qed.
Lemma carries_deinterlv p xs bs : is_perm (length bs) p -> Forall2 carries xs (map (fun i => nth i bs 0%Z) p) ->
  exists ys, deinterlv 0 p xs = Ok ys /\ Forall2 carries ys bs.
Proof.
  intros Hp H. pose proof Hp as (Hl & Hnd & Hin). apply Forall2_nth_c in H. destruct H as [Hxl H]. rewrite map_length in Hxl.
  destruct (deinterlv_ok 0 p xs) as (r & E & Hlr & Hr); [rewrite Hxl, Hl; exact Hp|]. exists r. split; [exact E|]. apply Forall2_nth_c. split; [lia|]. intros j Hj.
  destruct (perm_surj _ _ Hp j Hj) as (q & Hq & Eq). specialize (H q ltac:(rewrite map_length; lia)). rewrite (nth_map_lt _ p q 0%nat) in H by lia. rewrite <- Hr in H by lia. rewrite Eq in H. exact H.
Qed.

Lemma turbo_decode_ok tr v msg p sys par1 par2 n L_int : half_rate tr -> systematic tr -> linear tr -> 0 < v -> bits msg -> is_perm (length msg) p ->
  Forall2 carries sys msg -> (length msg <= length par1)%nat -> (length msg <= length par2)%nat ->
  (forall i, (i < length msg)%nat -> agrees (nth i par1 0) (nth i (parity tr msg) 0%Z)) ->
  (forall i, (i < length msg)%nat -> agrees (nth i par2 0) (nth i (parity tr (map (fun i => nth i msg 0%Z) p)) 0%Z)) ->
  (match L_int with None => True | Some l => length l = length msg /\ forall i, (i < length msg)%nat -> agrees (nth i l 0) (nth i msg 0%Z) end) ->
  (1 <= n)%nat -> turbo_decode sys par1 par2 tr v n p L_int = Ok msg.
Proof.
  intros HR HS HLIN Hv Hb Hp Hsys Hl1 Hl2 Ha1 Ha2 HL Hn. pose proof Hp as (Hpl & Hnd & Hin). unfold turbo_decode. set (L0 := match L_int with Some l => l | None => _ end).
  assert (HL0 : length L0 = length msg /\ forall i, (i < length msg)%nat -> agrees (nth i L0 0) (nth i msg 0%Z)).
  { unfold L0. destruct L_int as [l|]; [exact HL|]. apply Forall2_nth_c in Hsys. destruct Hsys as [Hls _]. rewrite repeat_length. split; [exact Hls|]. intros i Hi. rewrite nth_repeat_same. split; intros; lra. }
  clearbody L0. clear HL L_int. set (pmsg := map (fun i => nth i msg 0%Z) p) in *.
  assert (Hpb : bits pmsg) by (apply Forall_forall; intros x Hx; apply in_map_iff in Hx; destruct Hx as (i & <- & _); apply bits_nth; exact Hb).
  assert (Hpml : length pmsg = length msg) by (unfold pmsg; rewrite map_length; exact Hpl).
  destruct (carries_interlv p sys msg Hp Hsys) as [Ei Hci]. rewrite Ei. cbn [bind]. fold pmsg in Hci. set (sys_i := map (fun i => nth i sys 0) p) in *.
  assert (Hstep : forall L d it, length L = length msg -> (forall i, (i < length msg)%nat -> agrees (nth i L 0) (nth i msg 0%Z)) ->
     exists L' dec, turbo_iteration sys sys_i par1 par2 tr v n p (L, d) it = Ok (L', Some dec) /\ length L' = length msg /\ (forall i, (i < length msg)%nat -> agrees (nth i L' 0) (nth i msg 0%Z)) /\ ((it = n - 1)%nat -> dec = pmsg)).
  { intros L d it HlL HaL. unfold turbo_iteration.
    destruct (map_signs tr v HR HS HLIN Hv msg sys par1 Hb Hsys Ha1 L false HlL Hl1 HaL) as (Lx & dec1 & E1 & Hlx & _ & Hc1 & _). rewrite E1. cbn [bind fst].
    destruct (carries_interlv p _ _ Hp Hc1) as [E2 Hc2]. rewrite E2. cbn [bind]. fold pmsg in Hc2. set (L2 := map (fun i => nth i (minus Lx L) 0) p) in *.
    assert (HaL2 : forall i, (i < length pmsg)%nat -> agrees (nth i L2 0) (nth i pmsg 0%Z)) by (intros i Hi; apply carries_agrees; apply Forall2_nth_c in Hc2; apply Hc2; exact Hi).
    assert (HlL2 : length L2 = length pmsg) by (unfold L2, pmsg; rewrite !map_length; reflexivity).
    destruct (map_signs tr v HR HS HLIN Hv pmsg sys_i par2 Hpb Hci ltac:(rewrite Hpml; exact Ha2) L2 (it =? n - 1)%nat HlL2 ltac:(lia) HaL2) as (Lx2 & dec2 & E3 & Hlx2 & _ & Hc3 & Hd). rewrite E3. cbn [bind fst snd].
    destruct (carries_deinterlv p _ msg Hp Hc3) as (L' & E4 & Hc4). rewrite E4. cbn [bind]. apply Forall2_nth_c in Hc4. destruct Hc4 as [Hl4 Hc4].
    exists L', dec2. split; [reflexivity|]. split; [exact Hl4|]. split; [intros i Hi; apply carries_agrees, Hc4, Hi|]. intros ->. apply Hd. apply Nat.eqb_refl. }
  assert (HF : forall k t st, (t + k = n)%nat -> length (fst st) = length msg -> (forall i, (i < length msg)%nat -> agrees (nth i (fst st) 0) (nth i msg 0%Z)) -> (k = 0%nat -> snd st = Some pmsg) ->
     exists st', foldM (turbo_iteration sys sys_i par1 par2 tr v n p) (seq t k) st = Ok st' /\ snd st' = Some pmsg).
  { induction k as [|k IH]; intros t st Ht Hl Ha Hk; [exists st; split; [reflexivity|apply Hk; reflexivity]|]. cbn [seq foldM]. destruct st as [L d]. cbn [fst snd] in *.
    destruct (Hstep L d t Hl Ha) as (L' & dec & E & Hl' & Ha' & Hd). rewrite E. cbn [bind]. apply IH; cbn [fst snd]; [lia|exact Hl'|exact Ha'|]. intros ->. rewrite Hd by lia. reflexivity. }
  destruct (HF n 0%nat (L0, None) eq_refl) as (st & Es & Ed); cbn [fst snd]; [apply HL0|apply HL0|lia|]. rewrite Es. cbn [bind]. rewrite Ed.
  destruct (interleave_roundtrip 0%Z p msg Hp) as (y & Ey & _ & Ed2). rewrite (interlv_perm_ok 0%Z) in Ey by exact Hin. injection Ey as <-. exact Ed2.
Qed.

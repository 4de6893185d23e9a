From Verif Require Import Base SeqModel.
From Coq Require Import Permutation.

Definition maskdot (sr mask : list Z) : Z :=
  Zsum (map (fun xy => Z.land (fst xy) (snd xy)) (combine sr mask)) mod 2.

Fixpoint lfsr_state (mask sr : list Z) (t : nat) : list Z :=
  match t with O => sr | S t' => lfsr_step mask (lfsr_state mask sr t') end.

Lemma lfsr_state_shift mask sr t : lfsr_state mask (lfsr_step mask sr) t = lfsr_state mask sr (S t).
Proof. induction t as [|t IH]; [reflexivity|]. cbn [lfsr_state]. rewrite IH. reflexivity. Qed.

Lemma lfsr_step_length mask sr : sr <> [] -> length (lfsr_step mask sr) = length sr.
Proof.
  intros H. destruct (exists_last H) as (l & x & ->). unfold lfsr_step. cbn [length].
  rewrite removelast_last, app_length. cbn [length]. lia.
Qed.

Lemma lfsr_state_length mask sr t : sr <> [] -> length (lfsr_state mask sr t) = length sr.
Proof.
  intros H. induction t as [|t IH]; [reflexivity|]. cbn [lfsr_state]. rewrite lfsr_step_length; [exact IH|].
  intros E. rewrite E in IH. destruct sr; [contradiction|discriminate].
Qed.

Lemma py_get_last (l : list Z) : l <> [] -> py_get l (-1) = Ok (last l 0).
Proof.
  intros H. destruct (exists_last H) as (l' & x & ->). rewrite last_last.
  unfold py_get, py_idx. rewrite app_length. cbn [length].
  replace ((0 <=? -1) && (-1 <? Z.of_nat (length l' + 1))) with false by lia.
  replace ((- Z.of_nat (length l' + 1) <=? -1) && (-1 <? 0)) with true by lia.
  replace (Z.to_nat (-1 + Z.of_nat (length l' + 1))) with (length l') by lia.
  rewrite nth_error_app2, Nat.sub_diag by lia. reflexivity.
Qed.

Lemma pn_loop_spec mask n : forall sr, sr <> [] ->
  pn_loop mask sr n = Ok (map (fun t => last (lfsr_state mask sr t) 0) (seq 0 n)).
Proof.
  induction n as [|n IH]; intros sr H; [reflexivity|]. cbn [pn_loop]. rewrite py_get_last by exact H. cbn [bind].
  rewrite IH.
  - cbn [bind seq map]. f_equal. f_equal. rewrite <- seq_shift, map_map. apply map_ext. intros t.
    rewrite lfsr_state_shift. reflexivity.
  - intros E. apply (f_equal (@length Z)) in E. rewrite lfsr_step_length in E by exact H. destruct sr; [contradiction|discriminate].
Qed.

(* nth of a shifted register *)
Lemma removelast_nth (l : list Z) j : (j < length l - 1)%nat -> nth j (removelast l) 0 = nth j l 0.
Proof.
  intros H. destruct l as [|a l]; [cbn in H; lia|].
  assert (Hne : a :: l <> []) by discriminate.
  destruct (exists_last Hne) as (l' & x & E'). rewrite E', removelast_last in *.
  rewrite app_length in H. cbn [length] in H. rewrite app_nth1 by lia. reflexivity.
Qed.

Lemma last_nth (l : list Z) : last l 0 = nth (length l - 1) l 0.
Proof.
  destruct l as [|a l]; [reflexivity|]. assert (Hne : a :: l <> []) by discriminate.
  destruct (exists_last Hne) as (l' & x & ->). rewrite last_last, app_length. cbn [length].
  rewrite Nat.add_sub, app_nth2, Nat.sub_diag by lia. reflexivity.
Qed.

Lemma lfsr_step_nth mask sr j : (S j < length sr)%nat -> nth (S j) (lfsr_step mask sr) 0 = nth j sr 0.
Proof. intros H. unfold lfsr_step. cbn [nth]. apply removelast_nth. lia. Qed.

Lemma lfsr_step_0 mask sr : nth 0 (lfsr_step mask sr) 0 = maskdot sr mask.
Proof. reflexivity. Qed.

(* out t = last cell at time t; the cell j at time t is out (t + (order-1-j)) *)
Lemma lfsr_cell mask sr : sr <> [] -> forall d t j, (j + d = length sr - 1)%nat ->
  nth j (lfsr_state mask sr t) 0 = last (lfsr_state mask sr (t + d)) 0.
Proof.
  intros H. induction d as [|d IH]; intros t j Hj.
  - rewrite Nat.add_0_r, last_nth, lfsr_state_length by exact H. f_equal. lia.
  - replace (t + S d)%nat with (S t + d)%nat by lia. rewrite <- (IH (S t) (S j)) by lia.
    cbn [lfsr_state]. rewrite lfsr_step_nth; [reflexivity|]. rewrite lfsr_state_length by exact H.
    destruct sr; [contradiction|]. cbn [length] in *. lia.
Qed.

Lemma pn_first mask sr t : sr <> [] -> (t < length sr)%nat ->
  last (lfsr_state mask sr t) 0 = nth (length sr - 1 - t) sr 0.
Proof. intros H Ht. symmetry. apply (lfsr_cell mask sr H t 0 (length sr - 1 - t)). lia. Qed.

Lemma pn_recur mask sr t : sr <> [] ->
  last (lfsr_state mask sr (t + length sr)) 0 = maskdot (lfsr_state mask sr t) mask.
Proof.
  intros H. assert (0 < length sr)%nat by (destruct sr; [contradiction|cbn; lia]).
  replace (t + length sr)%nat with (S t + (length sr - 1))%nat by lia.
  rewrite <- (lfsr_cell mask sr H (length sr - 1) (S t) 0) by lia. reflexivity.
Qed.

Lemma land_bits a b : is_bit a -> is_bit b -> Z.land a b = a * b.
Proof. intros [-> | ->] [-> | ->]; reflexivity. Qed.

Lemma lfsr_step_bits mask sr : bits sr -> bits (lfsr_step mask sr).
Proof.
  intros H. unfold lfsr_step. constructor.
  - unfold is_bit. dlia.
  - destruct sr as [|a sr]; [constructor|]. assert (Hne : a :: sr <> []) by discriminate.
    destruct (exists_last Hne) as (l & x & E). rewrite E in *. rewrite removelast_last.
    apply bits_app in H. tauto.
Qed.

Lemma lfsr_state_bits mask sr t : bits sr -> bits (lfsr_state mask sr t).
Proof. intros H. induction t; [exact H|]. cbn [lfsr_state]. apply lfsr_step_bits. assumption. Qed.

(* maskdot as an indexed sum *)
Lemma maskdot_sum_aux : forall sr mask, bits sr -> bits mask -> length sr = length mask -> forall s (f : nat -> Z),
  (forall j, (j < length sr)%nat -> f (s + j)%nat = nth j mask 0 * nth j sr 0) ->
  Zsum (map (fun xy => Z.land (fst xy) (snd xy)) (combine sr mask)) = Zsum (map f (seq s (length sr))).
Proof.
  induction sr as [|x sr IH]; intros [|m mask] Hs Hm Hl s f Hf; cbn in Hl; try lia; [reflexivity|].
  inversion Hs; inversion Hm; subst. cbn [combine map length seq fst snd]. rewrite !Zsum_cons.
  rewrite (IH mask H2 H6 ltac:(lia) (S s) f).
  - rewrite land_bits by assumption. pose proof (Hf 0%nat ltac:(cbn; lia)) as E. rewrite Nat.add_0_r in E. cbn [nth] in E. lia.
  - intros j Hj. specialize (Hf (S j) ltac:(cbn; lia)). cbn [nth] in Hf. rewrite <- Hf. f_equal. lia.
Qed.

Lemma maskdot_sum sr mask : bits sr -> bits mask -> length sr = length mask ->
  maskdot sr mask = Zsum (map (fun j => nth j mask 0 * nth j sr 0) (seq 0 (length sr))) mod 2.
Proof.
  intros. unfold maskdot. f_equal. apply maskdot_sum_aux; try assumption. intros j _. reflexivity.
Qed.

Lemma map_ext_seq {B} (f g : nat -> B) s n : (forall i, (s <= i < s + n)%nat -> f i = g i) -> map f (seq s n) = map g (seq s n).
Proof. intros H. apply map_ext_in. intros i Hi. apply in_seq in Hi. apply H. lia. Qed.

Lemma pn_recur_out mask sr t : sr <> [] -> bits sr -> bits mask -> length mask = length sr ->
  last (lfsr_state mask sr (t + length sr)) 0 =
  Zsum (map (fun j => nth j mask 0 * last (lfsr_state mask sr (t + length sr - 1 - j)) 0) (seq 0 (length sr))) mod 2.
Proof.
  intros H Hs Hm Hl. rewrite pn_recur by exact H.
  rewrite maskdot_sum; [|apply lfsr_state_bits; exact Hs|exact Hm|rewrite lfsr_state_length by exact H; lia].
  rewrite lfsr_state_length by exact H. f_equal. f_equal. apply map_ext_seq. intros j Hj. f_equal.
  rewrite (lfsr_cell mask sr H (length sr - 1 - j) t j) by lia. f_equal. f_equal. lia.
Qed.

(* ---- linearity ---- *)
Definition xorl (a b : list Z) : list Z := map (fun xy => (fst xy + snd xy) mod 2) (combine a b).

Lemma xorl_length a b : length a = length b -> length (xorl a b) = length a.
Proof. intros H. unfold xorl. rewrite map_length, combine_length. lia. Qed.

Lemma xorl_nth a b i : length a = length b -> nth i (xorl a b) 0 = (nth i a 0 + nth i b 0) mod 2.
Proof.
  intros Hl. destruct (Nat.lt_ge_cases i (length a)) as [Hi|Hi].
  - unfold xorl. rewrite (nth_map_lt _ _ _ (0, 0)) by (rewrite combine_length; lia).
    rewrite combine_nth by exact Hl. reflexivity.
  - rewrite (nth_overflow (xorl a b)) by (rewrite xorl_length; lia). rewrite !nth_overflow by lia. reflexivity.
Qed.

Lemma xorl_bits a b : bits (xorl a b).
Proof. apply Forall_forall. intros x Hx. unfold xorl in Hx. apply in_map_iff in Hx. destruct Hx as (p & <- & _). unfold is_bit. dlia. Qed.

Lemma sum_linear_mod (m : nat -> Z) a b n : forall s,
  Zsum (map (fun j => m j * ((nth j a 0 + nth j b 0) mod 2)) (seq s n)) mod 2 =
  (Zsum (map (fun j => m j * nth j a 0) (seq s n)) mod 2 + Zsum (map (fun j => m j * nth j b 0) (seq s n)) mod 2) mod 2.
Proof.
  induction n as [|n IH]; intros s; cbn [seq map]; [reflexivity|]. rewrite !Zsum_cons.
  rewrite Z.add_mod, IH by lia.
  set (A := Zsum (map (fun j => m j * nth j a 0) (seq (S s) n))). set (B := Zsum (map (fun j => m j * nth j b 0) (seq (S s) n))).
  mod2_ring.
Qed.

Lemma lfsr_step_linear mask a b : bits a -> bits b -> bits mask -> length a = length b -> length mask = length a -> a <> [] ->
  lfsr_step mask (xorl a b) = xorl (lfsr_step mask a) (lfsr_step mask b).
Proof.
  intros Ha Hb Hm Hl Hml Hne.
  assert (Hbn : b <> []) by (intros ->; destruct a; [contradiction|discriminate]).
  assert (Hx : xorl a b <> []).
  { intros E. apply (f_equal (@length Z)) in E. rewrite xorl_length in E by exact Hl. destruct a; [contradiction|discriminate]. }
  assert (Hsl : length (lfsr_step mask a) = length (lfsr_step mask b)) by (rewrite !lfsr_step_length by assumption; exact Hl).
  apply nth_ext_Z.
  - rewrite xorl_length by exact Hsl. rewrite !lfsr_step_length by assumption. apply xorl_length, Hl.
  - intros i Hi. rewrite lfsr_step_length, xorl_length in Hi by assumption.
    rewrite xorl_nth by exact Hsl. destruct i as [|i].
    + rewrite !lfsr_step_0. rewrite !maskdot_sum by (try assumption; try apply xorl_bits; rewrite ?xorl_length; lia).
      rewrite xorl_length by exact Hl. rewrite <- Hl.
      rewrite <- (sum_linear_mod (fun j => nth j mask 0) a b (length a) 0).
      f_equal. f_equal. apply map_ext. intros j. rewrite xorl_nth by exact Hl. reflexivity.
    + rewrite !lfsr_step_nth; try lia; [|rewrite xorl_length; lia]. apply xorl_nth, Hl.
Qed.

Lemma lfsr_state_linear mask a b t : bits a -> bits b -> bits mask -> length a = length b -> length mask = length a -> a <> [] ->
  lfsr_state mask (xorl a b) t = xorl (lfsr_state mask a t) (lfsr_state mask b t).
Proof.
  intros Ha Hb Hm Hl Hml Hne.
  assert (Hbn : b <> []) by (intros ->; destruct a; [contradiction|discriminate]).
  induction t as [|t IH]; [reflexivity|]. cbn [lfsr_state]. rewrite IH.
  apply lfsr_step_linear; try (apply lfsr_state_bits; assumption); try assumption.
  - rewrite !lfsr_state_length by assumption. exact Hl.
  - rewrite lfsr_state_length by assumption. exact Hml.
  - intros E. apply (f_equal (@length Z)) in E. rewrite lfsr_state_length in E by exact Hne. destruct a; [contradiction|discriminate].
Qed.

(* ---- periodicity ---- *)
Fixpoint all_bits (n : nat) : list (list Z) :=
  match n with O => [[]] | S n' => map (cons 0) (all_bits n') ++ map (cons 1) (all_bits n') end.

Lemma all_bits_length n : length (all_bits n) = (2 ^ n)%nat.
Proof. induction n as [|n IH]; [reflexivity|]. cbn [all_bits Nat.pow]. rewrite app_length, !map_length, IH. lia. Qed.

Lemma all_bits_In l : bits l -> In l (all_bits (length l)).
Proof.
  induction l as [|x l IH]; intros H; [left; reflexivity|]. inversion H; subst. cbn [length all_bits]. apply in_or_app.
  destruct H2; subst; [left|right]; apply in_map, IH, H3.
Qed.

(* the nonzero words *)
Fixpoint nz_bits (n : nat) : list (list Z) :=
  match n with O => [] | S n' => map (cons 0) (nz_bits n') ++ map (cons 1) (all_bits n') end.

Lemma nz_bits_length n : length (nz_bits n) = (2 ^ n - 1)%nat.
Proof.
  induction n as [|n IH]; [reflexivity|]. cbn [nz_bits Nat.pow]. rewrite app_length, !map_length, IH, all_bits_length.
  assert (2 ^ n <> 0)%nat by (apply Nat.pow_nonzero; lia). lia.
Qed.

Lemma nz_bits_In l : bits l -> l <> repeat 0 (length l) -> In l (nz_bits (length l)).
Proof.
  induction l as [|x l IH]; intros H Hn; [cbn in Hn; contradiction|]. inversion H; subst. cbn [length nz_bits repeat] in *. apply in_or_app.
  destruct H2; subst; [left|right]; apply in_map.
  - apply IH; [exact H3|]. intros E. apply Hn. rewrite <- E. reflexivity.
  - apply all_bits_In, H3.
Qed.

Lemma pigeon {A} (dec : forall x y : A, {x = y} + {x <> y}) (f : nat -> A) (l : list A) n :
  (forall i, (i < n)%nat -> In (f i) l) -> (length l < n)%nat -> exists i j, (i < j < n)%nat /\ f i = f j.
Proof.
  intros Hin Hlt.
  destruct (ListDec.NoDup_dec dec (map f (seq 0 n))) as [Hnd|Hnd].
  - exfalso. assert (length (map f (seq 0 n)) <= length l)%nat.
    { apply NoDup_incl_length; [exact Hnd|]. intros x Hx. apply in_map_iff in Hx. destruct Hx as (i & <- & Hi). apply in_seq in Hi. apply Hin. lia. }
    rewrite map_seq_length in H. lia.
  - assert (Hd : forall s m, ~ NoDup (map f (seq s m)) -> exists i j, (s <= i < j /\ j < s + m)%nat /\ f i = f j).
    { intros s m; revert s; induction m as [|m IH]; intros s H; [exfalso; apply H; constructor|].
      cbn [seq map] in H. destruct (in_dec dec (f s) (map f (seq (S s) m))) as [Hi|Hi].
      - apply in_map_iff in Hi. destruct Hi as (j & E & Hj). apply in_seq in Hj. exists s, j. split; [lia|auto].
      - destruct (IH (S s)) as (i & j & Hij & E); [intros Hc; apply H; constructor; assumption|]. exists i, j. split; [lia|exact E]. }
    destruct (Hd 0%nat n Hnd) as (i & j & Hij & E). exists i, j. split; [lia|exact E].
Qed.

(* with last tap 1 the step is injective *)
Lemma lfsr_step_inj mask a b : bits a -> bits b -> bits mask -> length a = length b -> length mask = length a -> a <> [] ->
  last mask 0 = 1 -> lfsr_step mask a = lfsr_step mask b -> a = b.
Proof.
  intros Ha Hb Hm Hl Hml Hne Hlast E.
  assert (Hbn : b <> []) by (intros ->; destruct a; [contradiction|discriminate]).
  set (n := length a) in *. assert (Hn : (1 <= n)%nat) by (unfold n; destruct a; [contradiction|cbn; lia]).
  assert (Hlow : forall i, (S i < n)%nat -> nth i a 0 = nth i b 0).
  { intros i Hi. rewrite <- (lfsr_step_nth mask a i), <- (lfsr_step_nth mask b i) by lia. rewrite E. reflexivity. }
  assert (H0 : maskdot a mask = maskdot b mask) by (rewrite <- !lfsr_step_0, E; reflexivity).
  rewrite !maskdot_sum in H0 by (assumption || lia). rewrite <- Hl in H0. fold n in H0.
  replace n with (n - 1 + 1)%nat in H0 by lia. rewrite seq_app, !map_app, !Zsum_app in H0.
  cbn [seq map Nat.add] in H0. rewrite !Zsum_cons in H0. cbn [Zsum fold_right] in H0.
  rewrite last_nth, Hml in Hlast. rewrite Hlast in H0.
  rewrite (map_ext_seq (fun j => nth j mask 0 * nth j b 0) (fun j => nth j mask 0 * nth j a 0)) in H0
    by (intros i Hi; rewrite Hlow by lia; reflexivity).
  apply nth_ext_Z; [exact Hl|]. intros i Hi. fold n in Hi.
  destruct (Nat.eq_dec (S i) n) as [Ei|Ei]; [|apply Hlow; lia].
  replace (n - 1)%nat with i in H0 by lia.
  pose proof (bits_nth a i Ha) as B1. pose proof (bits_nth b i Hb) as B2.
  set (Sm := Zsum _) in H0. unfold is_bit in *.
  assert (Hx : (Sm + (1 * nth i a 0 + 0)) mod 2 = (Sm + (1 * nth i b 0 + 0)) mod 2) by exact H0.
  clear - B1 B2 Hx. Z.div_mod_to_equations. lia.
Qed.

Lemma lfsr_zero mask n : lfsr_step mask (repeat 0 (S n)) = repeat 0 (S n).
Proof.
  unfold lfsr_step.
  assert (E : forall m (mk : list Z), Zsum (map (fun xy => Z.land (fst xy) (snd xy)) (combine (repeat 0 m) mk)) = 0).
  { induction m as [|m IH]; intros [|x mk]; try reflexivity. cbn [repeat combine map]. rewrite Zsum_cons, IH. reflexivity. }
  rewrite E. change (0 mod 2) with 0. cbn [repeat]. f_equal.
  change (0 :: repeat 0 n) with (repeat 0 (S n)).
  replace (S n) with (n + 1)%nat by lia. rewrite repeat_app. cbn [repeat]. apply removelast_last.
Qed.

Lemma lfsr_state_zero mask n t : lfsr_state mask (repeat 0 (S n)) t = repeat 0 (S n).
Proof. induction t; [reflexivity|]. cbn [lfsr_state]. rewrite IHt. apply lfsr_zero. Qed.

Lemma lfsr_period mask sr : sr <> [] -> bits sr -> bits mask -> length mask = length sr -> last mask 0 = 1 ->
  sr <> repeat 0 (length sr) ->
  exists p, (1 <= p <= 2 ^ length sr - 1)%nat /\ forall t, lfsr_state mask sr (t + p) = lfsr_state mask sr t.
Proof.
  intros Hne Hs Hm Hl Hlast Hnz.
  set (n := length sr) in *.
  assert (Hpow : (2 ^ n <> 0)%nat) by (apply Nat.pow_nonzero; lia).
  assert (Hlen : forall t, length (lfsr_state mask sr t) = n) by (intros; apply lfsr_state_length, Hne).
  assert (Hnn : forall t, lfsr_state mask sr t <> []).
  { intros t E. pose proof (Hlen t) as H. rewrite E in H. unfold n in H. destruct sr; [contradiction|discriminate]. }
  assert (Hb : forall t, bits (lfsr_state mask sr t)) by (intros; apply lfsr_state_bits, Hs).
  assert (Hinj : forall i t, lfsr_state mask sr i = lfsr_state mask sr (i + t) -> sr = lfsr_state mask sr t).
  { induction i as [|i IH]; intros t E; [exact E|]. apply IH. cbn [Nat.add lfsr_state] in E.
    apply (lfsr_step_inj mask) in E; auto; rewrite !Hlen; auto. }
  assert (Hz : forall t, lfsr_state mask sr t <> repeat 0 n).
  { induction t as [|t IH]; [exact Hnz|]. cbn [lfsr_state]. intros E. apply IH.
    destruct n as [|n'] eqn:En; [exfalso; unfold n in En; destruct sr; [contradiction|discriminate]|].
    rewrite <- (lfsr_zero mask n') in E. apply (lfsr_step_inj mask) in E; auto.
    - apply bits_repeat0.
    - rewrite Hlen, repeat_length. reflexivity.
    - rewrite Hlen. exact Hl. }
  destruct (pigeon (list_eq_dec Z.eq_dec) (lfsr_state mask sr) (nz_bits n) (2 ^ n)) as (i & j & Hij & E).
  - intros i _. rewrite <- (Hlen i). apply nz_bits_In; [apply Hb|]. rewrite Hlen. apply Hz.
  - rewrite nz_bits_length. lia.
  - exists (j - i)%nat. split; [lia|].
    assert (E0 : sr = lfsr_state mask sr (j - i)).
    { apply (Hinj i). rewrite E. f_equal. lia. }
    induction t as [|t IH]; [symmetry; exact E0|]. cbn [Nat.add lfsr_state]. rewrite IH. reflexivity.
Qed.

(* ---- packaged ---- *)
Lemma pnsequence_ok (order : nat) seed mask len : length seed = order -> length mask = order -> (1 <= order)%nat ->
  pnsequence order seed mask len = Ok (map (fun t => last (lfsr_state mask seed t) 0) (seq 0 len)).
Proof.
  intros H1 H2 H3. unfold pnsequence. rewrite H1, H2, Nat.eqb_refl. cbn [negb]. apply pn_loop_spec.
  intros ->. cbn in H1. lia.
Qed.

Lemma last_bit l : bits l -> is_bit (last l 0).
Proof. intros H. rewrite last_nth. apply bits_nth, H. Qed.

Lemma pnsequence_recurrence (order len : nat) seed mask : (1 <= order)%nat -> length seed = order -> length mask = order ->
  bits seed -> bits mask ->
  exists out, pnsequence order seed mask len = Ok out /\ length out = len /\ bits out /\
    (forall t, (t < len)%nat -> (t < order)%nat -> nth t out 0 = nth (order - 1 - t) seed 0) /\
    (forall t, (t + order < len)%nat ->
       nth (t + order) out 0 = Zsum (map (fun j => nth j mask 0 * nth (t + order - 1 - j) out 0) (seq 0 order)) mod 2).
Proof.
  intros Ho Hs Hm Bs Bm. assert (Hne : seed <> []) by (intros ->; cbn in Hs; lia).
  eexists. split; [apply pnsequence_ok; assumption|]. split; [apply map_seq_length|].
  split.
  { apply Forall_forall. intros x Hx. apply in_map_iff in Hx. destruct Hx as (t & <- & _). apply last_bit, lfsr_state_bits, Bs. }
  split.
  - intros t Ht Hto. rewrite nth_map_seq by exact Ht. rewrite pn_first by (assumption || lia). rewrite Hs. reflexivity.
  - intros t Ht. rewrite nth_map_seq by exact Ht. subst order. rewrite pn_recur_out by assumption.
    f_equal. f_equal. apply map_ext_seq. intros j Hj. f_equal. rewrite nth_map_seq by lia. reflexivity.
Qed.

Lemma pnsequence_errors (order len : nat) seed mask :
  (pnsequence order seed mask len = Err ValueError <-> length seed <> order \/ length mask <> order).
Proof.
  unfold pnsequence. destruct (Nat.eqb_spec (length seed) order), (Nat.eqb_spec (length mask) order); cbn [negb]; split; intros H; try tauto.
  - exfalso. destruct seed as [|s seed].
    + destruct len; cbn in H; discriminate.
    + rewrite pn_loop_spec in H by discriminate. discriminate.
Qed.

Lemma pnsequence_prefix (order l1 l2 : nat) seed mask o1 o2 : (l1 <= l2)%nat ->
  pnsequence order seed mask l1 = Ok o1 -> pnsequence order seed mask l2 = Ok o2 -> o1 = firstn l1 o2.
Proof.
  intros Hl. unfold pnsequence. destruct (negb _); [discriminate|]. destruct (negb _); [discriminate|].
  destruct seed as [|s seed].
  - destruct l1; cbn; [intros H; inversion H; reflexivity|discriminate].
  - rewrite !pn_loop_spec by discriminate. intros H1 H2. inversion H1; inversion H2; subst.
    replace l2 with (l1 + (l2 - l1))%nat by lia. rewrite seq_app, map_app, firstn_app, map_seq_length, Nat.sub_diag.
    rewrite firstn_O, app_nil_r. symmetry. rewrite firstn_all2; [reflexivity|]. rewrite map_seq_length. lia.
Qed.

Lemma pnsequence_linear (order len : nat) s1 s2 mask o1 o2 : (1 <= order)%nat -> length mask = order ->
  bits s1 -> bits s2 -> bits mask ->
  pnsequence order s1 mask len = Ok o1 -> pnsequence order s2 mask len = Ok o2 ->
  pnsequence order (xorl s1 s2) mask len = Ok (xorl o1 o2).
Proof.
  intros Ho Hm B1 B2 Bm E1 E2.
  assert (Hl : forall s o, pnsequence order s mask len = Ok o -> length s = order).
  { intros s o E. unfold pnsequence in E. destruct (Nat.eqb_spec (length s) order); [assumption|discriminate]. }
  pose proof (Hl _ _ E1) as L1. pose proof (Hl _ _ E2) as L2.
  rewrite pnsequence_ok in E1, E2 by assumption. inversion E1; inversion E2; subst o1 o2.
  rewrite pnsequence_ok by (try assumption; rewrite xorl_length; lia). f_equal.
  apply nth_ext_Z; [rewrite xorl_length; rewrite !map_seq_length; reflexivity|].
  intros t Ht. rewrite map_seq_length in Ht. rewrite xorl_nth by (rewrite !map_seq_length; reflexivity).
  rewrite !nth_map_seq by exact Ht.
  assert (Hne : s1 <> []) by (intros ->; cbn in L1; lia). assert (Hne2 : s2 <> []) by (intros ->; cbn in L2; lia).
  rewrite lfsr_state_linear by (assumption || lia). rewrite !last_nth.
  assert (Hll : length (lfsr_state mask s1 t) = length (lfsr_state mask s2 t)) by (rewrite !lfsr_state_length by assumption; lia).
  rewrite xorl_length by exact Hll. rewrite xorl_nth by exact Hll. rewrite <- Hll. reflexivity.
Qed.

Lemma pnsequence_period (order : nat) seed mask : (1 <= order)%nat -> length seed = order -> length mask = order ->
  bits seed -> bits mask -> last mask 0 = 1 -> (exists i, nth i seed 0 = 1) ->
  exists p, (1 <= p <= 2 ^ order - 1)%nat /\
    forall len out t, pnsequence order seed mask len = Ok out -> (t + p < len)%nat -> nth (t + p) out 0 = nth t out 0.
Proof.
  intros Ho Hs Hm Bs Bm Hlast (i & Hi). assert (Hne : seed <> []) by (intros ->; cbn in Hs; lia).
  destruct (lfsr_period mask seed Hne Bs Bm) as (p & Hp & Hper); try lia.
  - intros E. rewrite E in Hi. rewrite nth_repeat_same in Hi. discriminate.
  - exists p. rewrite Hs in Hp. split; [exact Hp|]. intros len out t E Ht. rewrite pnsequence_ok in E by assumption.
    inversion E; subst out. rewrite !nth_map_seq by lia. rewrite Hper. reflexivity.
Qed.

Lemma pnsequence_zero (order len : nat) mask out : (1 <= order)%nat -> length mask = order ->
  pnsequence order (repeat 0 order) mask len = Ok out -> out = repeat 0 len.
Proof.
  intros Ho Hm E. rewrite pnsequence_ok in E by (try assumption; apply repeat_length). inversion E; subst out.
  destruct order as [|n]; [lia|]. apply nth_ext_Z; [rewrite map_seq_length, repeat_length; reflexivity|].
  intros t Ht. rewrite map_seq_length in Ht. rewrite nth_map_seq by exact Ht. rewrite lfsr_state_zero, last_nth, !nth_repeat_same. reflexivity.
Qed.

(* ---------- interleavers ---------- *)
Lemma interlv_ok {A} (d : A) p x : (forall i, In i p -> (i < length x)%nat) -> interlv p x = Ok (map (fun i => nth i x d) p).
Proof.
  intros H. unfold interlv. apply mapM_Ok. intros i Hi. rewrite (nth_error_nth' x d) by (apply H, Hi). reflexivity.
Qed.

Lemma deinterlv_loop {A} (d : A) (x : list A) : forall (p : list nat) s out,
  (s + length p <= length x)%nat -> (forall i, In i p -> (i < length out)%nat) -> NoDup p ->
  exists r, foldM (fun out ie => let '(index, element) := ie in
           match nth_error x index with
           | None => Err IndexError
           | Some a => if (element <? length out)%nat then Ok (upd out element a) else Err IndexError
           end) (combine (seq s (length p)) p) out = Ok r /\ length r = length out /\
     (forall q, (q < length p)%nat -> nth (nth q p 0%nat) r d = nth (s + q) x d) /\
     (forall j, ~ In j p -> nth j r d = nth j out d).
Proof.
  induction p as [|e p IH]; intros s out Hs Hin Hnd; cbn [length seq combine foldM].
  - exists out. repeat split; auto. intros q Hq. lia.
  - cbn [length] in Hs. inversion Hnd; subst.
    rewrite (nth_error_nth' x d) by lia. pose proof (Hin e (or_introl eq_refl)) as He.
    replace (e <? length out)%nat with true by lia. cbn [bind].
    destruct (IH (S s) (upd out e (nth s x d))) as (r & Hr & Hl & Hq & Hj).
    + lia.
    + intros i Hi. rewrite upd_length. apply Hin. right; exact Hi.
    + assumption.
    + exists r. rewrite upd_length in Hl. split; [exact Hr|]. split; [exact Hl|]. split.
      * intros [|q] Hlt; cbn [nth length] in *.
        -- rewrite Hj by assumption. rewrite nth_upd_eq by exact He. f_equal. lia.
        -- rewrite Hq by lia. f_equal. lia.
      * intros j Hn. rewrite Hj by (intros Hc; apply Hn; right; exact Hc). apply nth_upd_neq. intros ->. apply Hn. left; reflexivity.
Qed.

Lemma perm_surj n p : is_perm n p -> forall j, (j < n)%nat -> exists q, (q < n)%nat /\ nth q p 0%nat = j.
Proof.
  intros (Hl & Hnd & Hin) j Hj.
  assert (Hincl : incl (seq 0 n) p).
  { apply NoDup_length_incl; [exact Hnd|rewrite seq_length; lia|]. intros i Hi. apply in_seq. specialize (Hin i Hi). lia. }
  assert (Hp : In j p) by (apply Hincl, in_seq; lia).
  destruct (In_nth p j 0%nat Hp) as (q & Hq & E). exists q. split; [lia|exact E].
Qed.

Lemma deinterlv_ok {A} (zero : A) p x : is_perm (length x) p ->
  exists r, deinterlv zero p x = Ok r /\ length r = length x /\
    forall q, (q < length x)%nat -> nth (nth q p 0%nat) r zero = nth q x zero.
Proof.
  intros (Hl & Hnd & Hin). unfold deinterlv.
  destruct (deinterlv_loop zero x p 0 (repeat zero (length x))) as (r & Hr & Hrl & Hq & _); try lia; try assumption.
  - intros i Hi. rewrite repeat_length. apply Hin, Hi.
  - exists r. rewrite repeat_length in Hrl. split; [exact Hr|]. split; [exact Hrl|]. intros q Hlt. apply Hq. lia.
Qed.

Lemma interleave_roundtrip {A} (zero : A) p x : is_perm (length x) p ->
  exists y, interlv p x = Ok y /\ Permutation x y /\ deinterlv zero p y = Ok x.
Proof.
  intros HP. pose proof HP as (Hl & Hnd & Hin).
  exists (map (fun i => nth i x zero) p). split; [apply interlv_ok, Hin|].
  assert (Hyl : length (map (fun i => nth i x zero) p) = length x) by (rewrite map_length; exact Hl).
  split.
  - assert (Hx : x = map (fun i => nth i x zero) (seq 0 (length x))).
    { apply (nth_ext _ _ zero zero); [rewrite map_seq_length; reflexivity|]. intros i Hi. rewrite nth_map_seq by exact Hi. reflexivity. }
    rewrite Hx at 1. apply Permutation_map. apply NoDup_Permutation; [apply seq_NoDup|exact Hnd|].
    intros j. rewrite in_seq. split; intros H; [|split; [lia|apply Hin, H]].
    destruct (perm_surj _ p HP j) as (q & Hq & <-); [lia|]. apply nth_In. lia.
  - destruct (deinterlv_ok zero p (map (fun i => nth i x zero) p)) as (r & Hr & Hrl & Hq); [rewrite Hyl; exact HP|].
    rewrite Hr. f_equal. apply (nth_ext _ _ zero zero); [lia|]. intros j Hj. rewrite Hrl, Hyl in Hj.
    destruct (perm_surj _ p HP j Hj) as (q & Hqlt & <-). rewrite Hq by lia. rewrite (nth_map_lt _ p q 0%nat) by lia. reflexivity.
Qed.

Lemma deinterleave_roundtrip {A} (zero : A) p x : is_perm (length x) p ->
  exists y, deinterlv zero p x = Ok y /\ length y = length x /\ interlv p y = Ok x.
Proof.
  intros HP. pose proof HP as (Hl & Hnd & Hin). destruct (deinterlv_ok zero p x HP) as (r & Hr & Hrl & Hq).
  exists r. split; [exact Hr|]. split; [exact Hrl|]. rewrite (interlv_ok zero) by (intros i Hi; rewrite Hrl; apply Hin, Hi).
  f_equal. apply (nth_ext _ _ zero zero); [rewrite map_length; exact Hl|]. intros q Hlt. rewrite map_length in Hlt.
  rewrite (nth_map_lt _ p q 0%nat) by exact Hlt. apply Hq. lia.
Qed.

(* last tap 0: a register [0;1] with mask [0;0] emits 1 0 0 0 ... *)
Lemma pn_last_tap_needed :
  exists order seed mask, (1 <= order)%nat /\ length seed = order /\ length mask = order /\ bits seed /\ bits mask /\
    (exists i, nth i seed 0 = 1) /\
    forall p, (1 <= p)%nat -> exists len out, pnsequence order seed mask len = Ok out /\ (p < len)%nat /\ nth p out 0 <> nth 0 out 0.
Proof.
  exists 1%nat, [1], [0]. repeat split; try (repeat constructor; (left; reflexivity) || (right; reflexivity)); try lia.
  - exists 0%nat. reflexivity.
  - intros p Hp. exists (S p). eexists. split; [apply pnsequence_ok; reflexivity || lia|]. split; [lia|].
    rewrite !nth_map_seq by lia. destruct p as [|p]; [lia|].
    assert (E : lfsr_state [0] [1] (S p) = repeat 0 1).
    { clear Hp. induction p as [|p IH]; [reflexivity|]. cbn [lfsr_state] in *. rewrite IH. reflexivity. }
    rewrite E. cbn. discriminate.
Qed.

(* arrays whose length is not the interleaver's *)
Lemma deinterlv_loop_short {A} (x : list A) p : forall s out, (length x < s + length p)%nat -> (s <= length x)%nat ->
  foldM (fun out ie => let '(index, element) := ie in
           match nth_error x index with
           | None => Err IndexError
           | Some a => if (element <? length out)%nat then Ok (upd out element a) else Err IndexError
           end) (combine (seq s (length p)) p) out = Err IndexError.
Proof.
  induction p as [|e p IH]; intros s out Hs Hle; cbn [length] in *; [lia|]. cbn [seq combine foldM].
  destruct (nth_error x s) as [a|] eqn:E; [|reflexivity]. assert (s < length x)%nat by (apply nth_error_Some; rewrite E; discriminate).
  destruct (e <? length out)%nat; [|reflexivity]. cbn [bind]. apply IH; lia.
Qed.
Lemma interlv_short {A} (x : list A) p : (exists i, In i p /\ (length x <= i)%nat) -> interlv p x = Err IndexError.
Proof.
  unfold interlv. induction p as [|e p IH]; intros (i & Hi & Hl); [destruct Hi|]. cbn [mapM].
  destruct (nth_error x e) as [a|] eqn:E; [|reflexivity]. cbn [bind]. destruct Hi as [<-|Hi].
  - apply nth_error_None in Hl. congruence.
  - rewrite IH by (exists i; split; assumption). reflexivity.
Qed.
Lemma interleave_lengths {A} (zero : A) N p x : is_perm N p ->
  ((length x < N)%nat -> interlv p x = Err IndexError /\ deinterlv zero p x = Err IndexError) /\
  ((N <= length x)%nat ->
     (exists y, interlv p x = Ok y /\ length y = N /\ forall i, (i < N)%nat -> nth i y zero = nth (nth i p 0%nat) x zero) /\
     (exists y, deinterlv zero p x = Ok y /\ length y = length x /\ (forall i, (i < N)%nat -> nth (nth i p 0%nat) y zero = nth i x zero) /\
        forall j, (N <= j)%nat -> nth j y zero = zero)).
Proof.
  intros HP. pose proof HP as (Hl & Hnd & Hin). split.
  - intros Hs. split.
    + apply interlv_short. destruct (perm_surj N p HP (N - 1) ltac:(lia)) as (q & Hq & E). exists (N - 1)%nat. split; [rewrite <- E; apply nth_In; lia|lia].
    + apply deinterlv_loop_short; lia.
  - intros Hs. split.
    + exists (map (fun i => nth i x zero) p). split; [apply interlv_ok; intros i Hi; specialize (Hin i Hi); lia|]. split; [rewrite map_length; exact Hl|]. intros i Hi. rewrite (nth_map_lt _ p i 0%nat) by lia. reflexivity.
    + unfold deinterlv. destruct (deinterlv_loop zero x p 0 (repeat zero (length x))) as (r & Hr & Hrl & Hq & Hj); try lia; try assumption.
      * intros i Hi. rewrite repeat_length. specialize (Hin i Hi). lia.
      * exists r. rewrite repeat_length in Hrl. split; [exact Hr|]. split; [exact Hrl|]. split; [intros i Hi; rewrite Hq by lia; reflexivity|]. intros j Hge. rewrite Hj by (intros Hc; specialize (Hin j Hc); lia). destruct (nth_in_or_default j (repeat zero (length x)) zero) as [Hi|Hi]; [apply repeat_spec in Hi; exact Hi|exact Hi].
Qed.

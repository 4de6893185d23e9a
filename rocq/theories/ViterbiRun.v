(* viterbi_decode as a whole: what it returns, and the optimality of the paths it reads off. *)
From Verif Require Import Base UtilModel UtilProofs TrellisModel TrellisSpec TrellisProofs FloatRate ConvProofs ConvCode ViterbiModel ViterbiProofs ViterbiArray.

(* each state has 2^k incoming branches in where_list *)
Lemma flat_map_length_ext {A B} (f : A -> list B) (g : A -> nat) l : (forall a, In a l -> length (f a) = g a) ->
  length (flat_map f l) = fold_right Nat.add 0%nat (map g l).
Proof. induction l as [|a l IH]; intros H; [reflexivity|]. cbn [flat_map map fold_right]. rewrite app_length, H, IH; [reflexivity|intros b Hb; apply H; right; exact Hb|left; reflexivity]. Qed.

Lemma filter_prod_length {A B} (f : A * B -> bool) (l : list A) (l' : list B) :
  length (filter f (list_prod l l')) = fold_right Nat.add 0%nat (map (fun a => length (filter (fun b => f (a, b)) l')) l).
Proof.
  induction l as [|a l IH]; [reflexivity|]. cbn [list_prod map fold_right]. rewrite filter_app, app_length, IH. f_equal.
  apply filter_map_len.
Qed.

Lemma where_length tr v : length (where_list tr v) =
  length (filter (fun p => entry (tr_next tr) (fst p) (snd p) =? v) (list_prod (zseq (tr_M tr)) (zseq (tr_k tr)))).
Proof.
  rewrite filter_prod_length. unfold where_list.
  rewrite (flat_map_length_ext _ (fun i => length (filter (fun b => entry (tr_next tr) (Z.of_nat i) b =? v) (zseq (tr_k tr))))).
  - unfold zseq at 3. rewrite map_map. reflexivity.
  - intros i _. unfold zseq. rewrite filter_map_len.
    rewrite (flat_map_length_ext _ (fun j => if entry (tr_next tr) (Z.of_nat i) (Z.of_nat j) =? v then 1%nat else 0%nat)).
    + unfold number_inputs. generalize (seq 0 (2 ^ tr_k tr)) as l. induction l as [|j l IH]; [reflexivity|]. cbn [map fold_right filter].
      destruct (entry (tr_next tr) (Z.of_nat i) (Z.of_nat j) =? v); cbn [length]; rewrite IH; reflexivity.
    + intros j _. unfold entry. rewrite !Nat2Z.id. destruct (nth j (nth i (tr_next tr) []) (-1) =? v); reflexivity.
Qed.

Section Run.
Context {A X : Type} (add : A -> A -> A) (leb : A -> A -> bool) (zero : A).
Hypothesis leb_refl : forall a, leb a a = true.
Hypothesis leb_trans : forall a b c, leb a b = true -> leb b c = true -> leb a c = true.
Hypothesis leb_total : forall a b, leb a b = true \/ leb b a = true.
Context (tr : Trellis) (d : dtype A X) (bm : list X -> list Z -> A).
Hypothesis Hval : valid_trellis tr.
Hypothesis Hin : forall s, (s < number_states tr)%nat -> length (where_list tr (Z.of_nat s)) = number_inputs tr.
Hypothesis HkM : (tr_k tr <= tr_M tr)%nat.
Hypothesis Hbm : forall r i, length r = tr_n tr -> length i = tr_n tr -> bits i -> d_metric d r i = Ok (bm r i).
Local Notation k := (tr_k tr).
Local Notation n := (tr_n tr).
Local Notation M := (tr_M tr).

(* the word used at step t: a received word, or the padding word *)
Definition rword (B : nat) (coded : list X) (pad : X) (t : nat) : list X :=
  if (t <=? B)%nat then slice coded ((t - 1) * n) (t * n) else repeat pad n.

Lemma vit_run coded pad B tb gp (garbage : nat -> scratch A) :
  length coded = (n * B)%nat -> mul_ok k n = true -> Z.of_nat k * Z.of_nat B < 2 ^ 49 -> d_pad d = Ok pad -> (forall t, sized tr (garbage t)) ->
  (2 <= tb)%nat -> (M <= tb + k)%nat ->
  let T := ((B * k + M) / k - 1)%nat in
  let work := match d_clip d with Some f => map f coded | None => coded end in
  let rs := rword B work pad in
  exists db, viterbi_decode add leb zero d coded tr (Some tb) gp garbage =
    Ok (db, match d_clip d with Some _ => coded
            | None => if (T <=? B)%nat || (B =? 0)%nat then coded else firstn ((B - 1) * n) coded ++ repeat pad n ++ skipn (B * n) coded end) /\
    length db = (B * k)%nat /\
    forall i, (i < B * k)%nat -> nth i db None =
      if (tb <=? T + 1)%nat then let tau := Nat.min T (i / k + tb - 1) in
        Some (nth i (bitstream k (surv add leb zero tr bm rs tau (best add leb zero tr bm rs tau))) 0) else None.
Proof.
  intros Hlen Hmul Hbig Hpad Hg Htb HM T work rs. pose proof (proj1 Hval) as Hk. pose proof (proj1 (proj2 Hval)) as Hn.
  unfold viterbi_decode. rewrite Hlen. replace (Z.of_nat (n * B)) with (Z.of_nat n * Z.of_nat B) by lia.
  rewrite int_mul_rate_exact by (assumption || lia). replace (Z.to_nat (Z.of_nat k * Z.of_nat B)) with (B * k)%nat by lia. fold work.
  cbv zeta. rewrite mat_set_ok; cycle 1.
  { rewrite map_seq_length. apply NS_pos. } { rewrite nth_map_seq by apply NS_pos. rewrite map_seq_length. lia. }
  cbn [bind]. set (v0 := {| v_coded := work |}). set (D := ((B * k + tb + k - 1) / k * k)%nat).
  assert (HBk : (B * k / k = B)%nat) by (apply Nat.div_mul; lia).
  assert (HwL : length work = (n * B)%nat) by (unfold work; destruct (d_clip d); rewrite ?map_length; exact Hlen).
  assert (HTk : (T * k <= D)%nat).
  { unfold T, D. pose proof (Nat.div_mod (B * k + M) k ltac:(lia)) as D1. pose proof (Nat.div_mod (B * k + tb + k - 1) k ltac:(lia)) as D2.
    pose proof (Nat.mod_upper_bound (B * k + M) k ltac:(lia)) as D3. pose proof (Nat.mod_upper_bound (B * k + tb + k - 1) k ltac:(lia)) as D4.
    set (r1 := ((B * k + M) mod k)%nat) in *. set (r2 := ((B * k + tb + k - 1) mod k)%nat) in *. set (q1 := ((B * k + M) / k)%nat) in *. set (q2 := ((B * k + tb + k - 1) / k)%nat) in *.
    rewrite Nat.mul_sub_distr_r, Nat.mul_1_l. rewrite (Nat.mul_comm q1), (Nat.mul_comm q2). lia. }
  assert (HBT : (B <= T)%nat).
  { unfold T. pose proof (Nat.div_le_mono (B * k + k) (B * k + M) k ltac:(lia) ltac:(lia)) as H. replace (B * k + k)%nat with ((B + 1) * k)%nat in H by lia.
    rewrite Nat.div_mul in H by lia. lia. }
  destruct (main_loop add leb zero leb_refl leb_trans leb_total tr d bm rs Hval Hin HkM Hbm work (B * k) tb pad garbage Hg Htb) with (D := D) (T := T) (v := v0) as (v' & E & HI).
  { rewrite HBk, HwL. lia. } { exact Hpad. } { intros t Ht. unfold rs, rword. rewrite HBk. reflexivity. }
  { unfold INV, v0. cbn [v_coded v_view v_pm v_paths v_syms v_bits v_tb v_count].
    split; [reflexivity|]. split; [reflexivity|]. split; [reflexivity|].
    split. { split; [rewrite upd_length; apply map_seq_length|]. intros s Hs. rewrite nth_upd. destruct ((s =? 0)%nat && _).
      - rewrite upd_length, nth_map_seq by apply NS_pos. apply map_seq_length.
      - rewrite nth_map_seq by exact Hs. apply map_seq_length. }
    split. { split; [apply repeat_length|]. intros s Hs. rewrite nth_repeat_lt by exact Hs. apply repeat_length. }
    split; [lia|]. split; [replace (0 + 2 - tb)%nat with 0%nat by lia; reflexivity|].
    split; [intros s j Hs Hj; lia|]. split; [apply repeat_length|].
    intros i. rewrite nth_repeat_same. unfold bit_after. rewrite andb_false_r. reflexivity. }
  { exact HTk. }
  fold T. rewrite E. cbn [bind]. destruct HI as (I1 & _ & _ & _ & _ & _ & _ & _ & I9 & I10).
  assert (HBTk : (B * k <= T * k)%nat).
  { apply Nat.mul_le_mono_r. unfold T. assert (B + 1 <= (B * k + M) / k)%nat by (apply Nat.div_le_lower_bound; [lia|]; clear - HkM; nia). lia. }
  exists (firstn (B * k) (v_bits v')). split; [|split].
  - f_equal. f_equal. rewrite I1. unfold coded_after. rewrite HBk. unfold work. destruct (d_clip d); [reflexivity|]. reflexivity.
  - rewrite firstn_length, I9. lia.
  - intros i Hi. rewrite firstn_nth by exact Hi. rewrite I10. unfold bit_after. assert (i <? T * k = true)%nat as -> by (apply Nat.ltb_lt; lia). rewrite andb_true_r. reflexivity.
Qed.
End Run.

(* ---------------------------------------------------------------- metrics that are sums over the coded bits *)
Section Separable.
Context {A X : Type} (add : A -> A -> A) (zero : A) (g : X -> Z -> A).
Hypothesis add_assoc : forall a b c, add a (add b c) = add (add a b) c.
Hypothesis add_zero : forall a, add a zero = a.
Hypothesis zero_add : forall a, add zero a = a.

(* sum of g over corresponding entries *)
Fixpoint dist (xs : list X) (bs : list Z) : A :=
  match xs, bs with x :: xs, b :: bs => add (g x b) (dist xs bs) | _, _ => zero end.
Lemma dist_app xs : forall bs xs' bs', length xs = length bs -> dist (xs ++ xs') (bs ++ bs') = add (dist xs bs) (dist xs' bs').
Proof.
  induction xs as [|x xs IH]; intros [|b bs] xs' bs' H; try discriminate; [symmetry; apply zero_add|]. cbn [app dist].
  rewrite IH by (cbn in H; lia). apply add_assoc.
Qed.

Lemma cost_dist tr (bm : list X -> list Z -> A) : (forall r i, length r = tr_n tr -> length i = tr_n tr -> bits i -> bm r i = dist r i) -> forall us acc s ws,
  length us = length ws -> Forall (fun w => length w = tr_n tr) ws ->
  cost add tr bm acc s us ws = add acc (dist (concat ws) (bitstream (tr_n tr) (emit (entry (tr_next tr)) (entry (tr_out tr)) s us))).
Proof.
  intros Hbm. induction us as [|u us IH]; intros acc s [|w ws] L F; try discriminate; [symmetry; apply add_zero|].
  cbn [cost emit concat]. inversion F as [|? ? Hw F']; subst. rewrite IH by (try exact F'; cbn in L; lia).
  unfold bmet. cbn [fst snd]. rewrite Hbm by (try exact Hw; try apply bits_msb_length; apply bits_msb_bits).
  unfold bitstream. cbn [map concat]. rewrite dist_app by (rewrite bits_msb_length; exact Hw). symmetry. apply add_assoc.
Qed.
End Separable.

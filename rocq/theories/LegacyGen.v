(* The constructor with an integer feedback: one input is the closed form of TrellisModel; several inputs *)
From Verif Require Import Base UtilModel UtilProofs TrellisModel TrellisSpec TrellisProofs ConvProofs LegacyProofs LegacyModel.

Lemma py_bound_nat : forall n m : nat, py_bound n (Z.of_nat m) = Nat.min m n.
Proof. intros n m. unfold py_bound. destruct (Z.ltb_spec (Z.of_nat m) 0); lia. Qed.
Lemma py_set_ok : forall {A} (l : list A) (i : nat) a, (i < length l)%nat -> py_set l (Z.of_nat i) a = Ok (upd l i a).
Proof. intros A l i a H. unfold py_set, py_idx. replace ((0 <=? Z.of_nat i) && (Z.of_nat i <? Z.of_nat (length l))) with true by lia. rewrite Nat2Z.id. reflexivity. Qed.
Lemma py_slice_nat : forall l a b, (a <= b <= length l)%nat -> py_slice l (Z.of_nat a) (Z.of_nat b) = firstn (b - a) (skipn a l).
Proof. intros l a b H. unfold py_slice. rewrite !py_bound_nat, !Nat.min_l by lia. reflexivity. Qed.
Lemma foldM_Ok : forall {A B} (f : B -> A -> res B) (g : B -> A -> B) l b, (forall b a, In a l -> f b a = Ok (g b a)) -> foldM f l b = Ok (fold_left g l b).
Proof. intros A B f g l. induction l as [|a l IH]; intros b H; [reflexivity|]. cbn [foldM fold_left]. rewrite H by (left; reflexivity). cbn [bind]. apply IH. intros; apply H; right; assumption. Qed.
Lemma np_dot_same : forall a b, length a = length b -> np_dot a b = Ok (Zsum (map (fun i => nth i a 0 * nth i b 0) (seq 0 (length a)))).
Proof.
  intros a b H. unfold np_dot, np_broadcast2. rewrite H, Nat.eqb_refl. cbn [bind]. f_equal. rewrite <- H. revert b H. induction a as [|x a IH]; intros [|y b] H; try discriminate; [reflexivity|]. injection H as H. cbn [combine map length seq]. rewrite !Zsum_cons, IH by exact H. cbn [fst snd nth]. f_equal. rewrite <- seq_shift, map_map. reflexivity.
Qed.
Lemma fits_dec : forall p w, 0 <= p < 2 ^ Z.of_nat w -> dec2bitarray p w = Ok (bits_msb w p).
Proof. intros p w H. unfold dec2bitarray. apply decimal2bitarray_ok. exact H. Qed.

(* ---------------------------------------------------------------- one input *)
Section One.
  Variables (mem n : nat) (row : list Z) (feedback : Z).
  Hypothesis Hm : (1 <= mem)%nat.
  Hypothesis Hn : (1 <= n <= length row)%nat.
  Hypothesis Hg : forall r, (r < n)%nat -> 0 <= nth r row 0 < 2 ^ Z.of_nat (mem + 1).
  Hypothesis Hf : 0 <= feedback < 2 ^ Z.of_nat (mem + 1).

  Lemma one_output : forall s u r, (s < 2 ^ mem)%nat -> (u < 2)%nat -> (r < n)%nat ->
    let sr := bits_msb mem (Z.of_nat s) in let gen := bits_msb (mem + 1) (nth r row 0) in let fbv := bits_msb (mem + 1) feedback in
    let fa := Zsum (map (fun i => nth (i + 1) fbv 0 * nth i sr 0) (seq 0 mem)) in let inp := bits_msb 1 (Z.of_nat u) in
    int_output [mem] 1 [row] feedback s u r = Ok ((fold_left (fun o i => (o + nth i sr 0 * nth (i + 1) gen 0) mod 2) (seq 0 mem) 0 + (nth 0 inp 0 * nth 0 gen 0 + fa) mod 2) mod 2, legacy_next mem sr fbv inp).
  Proof.
    intros s u r Hs Hu Hr sr gen fbv fa inp. assert (Hs' : Z.of_nat s < 2 ^ Z.of_nat mem) by (apply inj_lt in Hs; rewrite Nat2Z.inj_pow in Hs; exact Hs).
    assert (Lsr : length sr = mem) by apply bits_msb_length. assert (Lgen : length gen = (mem + 1)%nat) by apply bits_msb_length. assert (Lf : length fbv = (mem + 1)%nat) by apply bits_msb_length. assert (Li : length inp = 1%nat) by apply bits_msb_length.
    unfold int_output. replace (sum_mem [mem]) with mem by (cbn; lia). rewrite (fits_dec (Z.of_nat s)) by lia. cbn [bind]. fold sr. rewrite (fits_dec (Z.of_nat u) 1) by (change (2 ^ Z.of_nat 1) with 2; lia). cbn [bind]. fold inp.
    cbn [seq foldM]. unfold int_round. cbn [Nat.eqb]. change (py_get [mem] (Z.of_nat 0)) with (Ok mem). cbn [bind]. change (py_get [row] (Z.of_nat 0)) with (Ok row). cbn [bind]. rewrite (py_get_ok row r 0) by lia. cbn [bind]. rewrite fits_dec by (apply Hg; exact Hr). cbn [bind]. fold gen.
    rewrite (foldM_Ok _ (fun o i => (o + nth i sr 0 * nth (i + 1) gen 0) mod 2)).
    2:{ intros o i Hi. apply in_seq in Hi. rewrite Nat.add_0_r. rewrite (py_get_ok sr i 0) by lia. cbn [bind]. rewrite (py_get_ok gen (i + 1) 0) by lia. reflexivity. }
    cbn [bind]. change 0 with (Z.of_nat 0). rewrite (py_get_ok gen 0 0) by lia. cbn [bind]. rewrite (fits_dec feedback) by exact Hf. cbn [bind]. fold fbv. rewrite (py_get_ok inp 0 0) by lia. cbn [bind].
    rewrite py_slice_nat by lia. cbn [skipn]. rewrite Nat.sub_0_r, firstn_all2 by lia.
    assert (Ltl : length (tl fbv) = mem) by (destruct fbv; cbn [tl length] in *; lia). rewrite np_dot_same by lia. rewrite Ltl.
    replace (Zsum (map (fun i => nth i (tl fbv) 0 * nth i sr 0) (seq 0 mem))) with fa.
    2:{ unfold fa. f_equal. apply map_ext. intros i. f_equal. rewrite Nat.add_1_r. destruct fbv; [destruct i; reflexivity|reflexivity]. }
    cbn [bind]. replace (Z.of_nat mem - 1) with (Z.of_nat (mem - 1)) by lia. rewrite py_slice_nat by lia. cbn [skipn]. rewrite Nat.sub_0_r.
    unfold py_store. change 1 with (Z.of_nat 1). rewrite !py_bound_nat, Lsr. replace (Nat.min 1 mem) with 1%nat by lia. rewrite Nat.min_id. rewrite firstn_length, Lsr. replace (Nat.min (mem - 1) mem) with (mem - 1)%nat by lia. rewrite Nat.eqb_refl. cbn [bind]. rewrite (skipn_all2 sr) by lia. rewrite app_nil_r.
    rewrite (py_set_ok _ 0) by (rewrite app_length, !firstn_length; lia). cbn [bind app]. assert (Ei : inp = [nth 0 inp 0]) by (destruct inp as [|x [|y z]]; cbn [length] in Li; try lia; reflexivity). f_equal. f_equal.
    - rewrite Ei. cbn [combine map nth fst snd]. rewrite Zsum_cons, Z.add_0_r. change (Zsum []) with 0. rewrite ?Z.add_0_r. reflexivity.
    - unfold legacy_next. fold fa. f_equal. apply (nth_ext _ _ 0 0); [rewrite app_length, !firstn_length, map_length, seq_length; lia|]. intros i Hi. rewrite app_length, !firstn_length in Hi. rewrite nth_map_seq by lia. destruct i as [|i].
      + cbn [Nat.eqb]. rewrite app_nth1 by (rewrite firstn_length; lia). rewrite firstn_nth by lia. reflexivity.
      + cbn [Nat.eqb]. rewrite app_nth2 by (rewrite firstn_length; lia). rewrite firstn_length. replace (S i - Nat.min 1 (length sr))%nat with i by lia. rewrite firstn_nth by lia. f_equal. lia.
  Qed.
  Lemma one_entry : forall s u, (s < 2 ^ mem)%nat -> (u < 2)%nat -> int_entry [mem] 1 n [row] feedback s u = legacy_entry mem n row feedback s u.
  Proof.
    intros s u Hs Hu. assert (Hs' : Z.of_nat s < 2 ^ Z.of_nat mem) by (apply inj_lt in Hs; rewrite Nat2Z.inj_pow in Hs; exact Hs). unfold int_entry, legacy_entry. rewrite (fits_dec (Z.of_nat s)) by lia. cbn [bind]. rewrite (fits_dec feedback) by exact Hf. cbn [bind]. rewrite (fits_dec (Z.of_nat u) 1) by (change (2 ^ Z.of_nat 1) with 2; lia). cbn [bind].
    set (sr := bits_msb mem (Z.of_nat s)). set (fbv := bits_msb (mem + 1) feedback). set (inp := bits_msb 1 (Z.of_nat u)). set (fa := Zsum (map (fun i => nth (i + 1) fbv 0 * nth i sr 0) (seq 0 mem))).
    set (o := fun r => (fold_left (fun o i => (o + nth i sr 0 * nth (i + 1) (bits_msb (mem + 1) (nth r row 0)) 0) mod 2) (seq 0 mem) 0 + (nth 0 inp 0 * nth 0 (bits_msb (mem + 1) (nth r row 0)) 0 + fa) mod 2) mod 2).
    rewrite (mapM_Ok _ (fun r => (o r, legacy_next mem sr fbv inp))) by (intros r Hr; apply in_seq in Hr; apply one_output; lia). rewrite (mapM_Ok _ o) by (intros r Hr; apply in_seq in Hr; rewrite fits_dec by (apply Hg; lia); reflexivity). cbn [bind]. rewrite map_map. cbn [fst].
    destruct n as [|m]; [lia|]. rewrite (seq_S m 0), !map_app. cbn [map]. rewrite last_last. cbn [snd]. destruct (map _ (seq 0 m) ++ _) eqn:E; [destruct (map _ (seq 0 m)); discriminate E|]. reflexivity.
  Qed.
End One.
Lemma mapM_ext : forall {A B} (f g : A -> res B) l, (forall a, In a l -> f a = g a) -> mapM f l = mapM g l.
Proof. intros A B f g l H. induction l as [|a l IH]; [reflexivity|]. cbn [mapM]. rewrite H by (left; reflexivity). rewrite IH by (intros; apply H; right; assumption). reflexivity. Qed.
Lemma one_input : forall mem n g_row feedback rsc, (1 <= mem)%nat -> (1 <= n <= length g_row)%nat ->
  (forall r, (r < n)%nat -> 0 <= nth r g_row 0 < 2 ^ Z.of_nat (mem + 1)) -> 0 <= feedback < 2 ^ Z.of_nat (mem + 1) ->
  make_trellis_int [mem] n [g_row] feedback rsc = (r <- make_trellis_legacy mem n g_row feedback rsc ;; Ok (fst r, [snd r])).
Proof.
  intros mem n g_row feedback rsc Hm Hn Hg Hf. unfold make_trellis_int, make_trellis_legacy. set (row := if rsc then upd g_row 0 feedback else g_row). cbn [length]. replace (sum_mem [mem]) with mem by (cbn; lia).
  match goal with |- bind ?x _ = _ => replace x with (@Ok (list (list Z)) [row]) end.
  2:{ unfold row. destruct rsc; [|reflexivity]. cbn [seq foldM]. change (py_get [g_row] (Z.of_nat 0)) with (Ok g_row). cbn [bind]. rewrite py_set_ok by lia. reflexivity. }
  cbn [bind]. rewrite (mapM_ext _ (fun s => mapM (fun u => legacy_entry mem n row feedback s u) (seq 0 2))).
  - destruct (mapM _ (seq 0 (2 ^ mem))); reflexivity.
  - intros s Hs. apply in_seq in Hs. apply mapM_ext. intros u Hu. apply in_seq in Hu. apply one_entry; try lia.
    + unfold row. destruct rsc; rewrite ?upd_length; lia.
    + intros r Hr. unfold row. destruct rsc; [|apply Hg; exact Hr]. destruct (Nat.eq_dec r 0) as [->|Hr0]; [rewrite nth_upd_eq by lia; exact Hf|rewrite nth_upd_neq by exact Hr0; apply Hg; exact Hr].
Qed.

(* ---------------------------------------------------------------- several inputs *)
Lemma dec_len : forall p w, 0 <= p < 2 ^ (2 * Z.of_nat w) -> exists v, dec2bitarray p w = Ok v /\ length v = w.
Proof. intros p w H. unfold dec2bitarray. destruct (decimal2bitarray_wide p w H) as (v & E & L & _). exists v. split; assumption. Qed.
Lemma offset_ge : forall memory l, (1 <= l <= length memory)%nat -> (forall i, (1 <= i < l)%nat -> nth i memory 0 = 1)%nat -> (nth 0 memory 0 + (l - 1) <= offset memory l)%nat.
Proof.
  intros memory l Hl H1. destruct memory as [|m0 memory]; [cbn in Hl; lia|]. destruct l as [|l]; [lia|]. rewrite offset_S. cbn [nth]. assert (G : forall c, (c <= length memory)%nat -> (c <= l)%nat -> (c <= offset memory c)%nat).
  { intros c. assert (H2 : forall i, (i < l)%nat -> nth i memory 0%nat = 1%nat) by (intros i Hi; apply (H1 (S i)); lia). clear - H2. revert memory l H2. induction c as [|c IH]; intros memory l H2 Hc Hcl; [lia|]. destruct memory as [|m memory]; [cbn in Hc; lia|]. rewrite offset_S. pose proof (H2 0%nat ltac:(lia)) as E. cbn [nth] in E. subst m. destruct l as [|l]; [lia|]. specialize (IH memory l (fun i Hi => H2 (S i) ltac:(lia))). cbn [length] in Hc. lia. }
  cbn [length] in Hl. specialize (G l ltac:(lia) ltac:(lia)). lia.
Qed.
Lemma firstn_slice_length : forall (l : list Z) a b, (a <= b <= length l)%nat -> length (py_slice l (Z.of_nat a) (Z.of_nat b)) = (b - a)%nat.
Proof. intros l a b H. rewrite py_slice_nat by exact H. rewrite firstn_length, skipn_length. lia. Qed.
Lemma py_store_same : forall l a b v, (a <= b <= length l)%nat -> length v = (b - a)%nat -> exists w, py_store l (Z.of_nat a) (Z.of_nat b) v = Ok w /\ length w = length l.
Proof.
  intros l a b v H Lv. unfold py_store. rewrite !py_bound_nat, !Nat.min_l by lia. rewrite Lv, Nat.eqb_refl. cbn [bind]. eexists. split; [reflexivity|]. rewrite !app_length, firstn_length, skipn_length. lia.
Qed.

Section Several.
  Variables (memory : list nat) (g : list (list Z)) (feedback : Z) (l : nat).
  Hypothesis Hlen : length memory = length g.
  Hypothesis Hl : (1 <= l < length g)%nat.
  Hypothesis H0 : (1 <= nth 0 memory 0)%nat.
  Hypothesis H1 : forall i, (1 <= i < l)%nat -> nth i memory 0%nat = 1%nat.
  Hypothesis H2 : (2 <= nth l memory 0)%nat.
  Hypothesis Hrow : forall i, (i <= l)%nat -> (1 <= length (nth i g []))%nat.
  Hypothesis Hg : forall i, (i <= l)%nat -> 0 <= nth 0 (nth i g []) 0 < 2 ^ (2 * Z.of_nat (nth i memory 0%nat + 1)).
  Hypothesis Hf : forall i, (i <= l)%nat -> 0 <= feedback < 2 ^ (2 * Z.of_nat (nth i memory 0%nat + 1)).

  Lemma total_big : (nth 0 memory 0 + (l - 1) + nth l memory 0 <= sum_mem memory)%nat.
  Proof. pose proof (offset_bound memory l ltac:(lia)). pose proof (offset_ge memory l ltac:(lia) H1). lia. Qed.
  Lemma mem_cases : forall i, (i < l)%nat -> i = 0%nat \/ (1 <= i)%nat /\ nth i memory 0%nat = 1%nat.
  Proof. intros i Hi. destruct i as [|i]; [left; reflexivity|]. right. split; [lia|apply H1; lia]. Qed.

  (* the part of a round before the feedback *)
  Lemma round_reads : forall sr (gen : list Z) i mem o, length sr = sum_mem memory -> mem = nth i memory 0%nat -> length gen = (mem + 1)%nat -> (i <= l)%nat ->
    exists o', foldM (fun o j => c <- py_get sr (Z.of_nat (j + i)) ;; y <- py_get gen (Z.of_nat (j + 1)) ;; Ok ((o + c * y) mod 2)) (seq 0 mem) o = Ok o'.
  Proof.
    intros sr gen i mem o Ls Em Lg Hi. rewrite (foldM_Ok _ (fun o j => (o + nth (j + i) sr 0 * nth (j + 1) gen 0) mod 2)).
    - eexists. reflexivity.
    - intros b j Hj. apply in_seq in Hj. pose proof total_big as T. rewrite (py_get_ok sr (j + i) 0).
      + cbn [bind]. rewrite (py_get_ok gen (j + 1) 0) by lia. reflexivity.
      + rewrite Ls. destruct (Nat.eq_dec i l) as [->|Hne]; [lia|]. destruct (mem_cases i ltac:(lia)) as [->|[Hi1 E]]; lia.
  Qed.
  Lemma round_ok : forall inp sr gens o fa i, length inp = length g -> length sr = sum_mem memory -> (i < l)%nat ->
    exists o' sr' gens' fa', int_round memory g feedback inp 0 (o, sr, gens, fa) i = Ok (o', sr', gens', fa') /\ length sr' = sum_mem memory.
  Proof.
    intros inp sr gens o fa i Li Ls Hi. pose proof total_big as T. unfold int_round. rewrite (py_get_ok memory i 0%nat) by lia. cbn [bind]. rewrite (py_get_ok g i []) by lia. cbn [bind]. rewrite (py_get_ok (nth i g []) 0 0) by (apply Hrow; lia). cbn [bind].
    destruct (dec_len _ _ (Hg i ltac:(lia))) as (gen & Eg & Lg). rewrite Eg. cbn [bind]. destruct (round_reads sr gen i _ o Ls eq_refl Lg ltac:(lia)) as (o' & Eo). rewrite Eo. cbn [bind]. change 0 with (Z.of_nat 0) at 1. rewrite (py_get_ok gen 0 0) by lia. cbn [bind].
    destruct (dec_len _ _ (Hf i ltac:(lia))) as (fbv & Ef & Lf). rewrite Ef. cbn [bind]. rewrite (py_get_ok inp i 0) by lia. cbn [bind]. destruct (mem_cases i Hi) as [->|[Hi1 Em]].
    - cbn [Nat.eqb]. set (m := nth 0 memory 0%nat) in *. change 0 with (Z.of_nat 0) at 1. assert (Lp : length (py_slice sr (Z.of_nat 0) (Z.of_nat m)) = m) by (rewrite firstn_slice_length; lia). rewrite np_dot_same by (rewrite Lp; destruct fbv; cbn [tl length] in *; lia). cbn [bind].
      change 1 with (Z.of_nat 1) at 1. replace (Z.of_nat m - 1) with (Z.of_nat (m - 1)) by lia. change 0 with (Z.of_nat 0) at 1. destruct (py_store_same sr 1 m (py_slice sr (Z.of_nat 0) (Z.of_nat (m - 1)))) as (w & Ew & Lw); [lia|rewrite firstn_slice_length; lia|]. rewrite Ew. cbn [bind].
      change 0 with (Z.of_nat 0) at 1. rewrite (py_set_ok w 0) by lia. cbn [bind]. do 4 eexists. split; [reflexivity|]. rewrite upd_length. lia.
    - destruct (Nat.eqb_spec i 0) as [|_]; [lia|]. replace (Z.of_nat i - 1) with (Z.of_nat (i - 1)) by lia. rewrite (py_get_ok memory (i - 1) 0%nat) by lia. cbn [bind]. rewrite Em in *. set (p := nth (i - 1) memory 0%nat) in *.
      assert (Hp : (i + p <= sum_mem memory)%nat) by (unfold p; destruct (mem_cases (i - 1) ltac:(lia)) as [E|[_ E]]; rewrite E; lia).
      replace (Z.of_nat i + Z.of_nat p - 1) with (Z.of_nat (i + p - 1)) by lia. replace (Z.of_nat i + Z.of_nat p + Z.of_nat 1 - 1) with (Z.of_nat (i + p)) by lia. replace (Z.of_nat i + Z.of_nat p + Z.of_nat 1 - 2) with (Z.of_nat (i + p - 1)) by lia. replace (Z.of_nat i + Z.of_nat p) with (Z.of_nat (i + p)) by lia.
      assert (Lp : length (py_slice sr (Z.of_nat (i + p - 1)) (Z.of_nat (i + p))) = 1%nat) by (rewrite firstn_slice_length; lia). destruct (py_slice sr (Z.of_nat (i + p - 1)) (Z.of_nat (i + p))) as [|x [|]]; cbn [length] in Lp; try lia. clear Lp.
      destruct fbv as [|f0 [|f1 [|]]]; cbn [length] in Lf; try lia. cbn [np_dot np_broadcast2 length Nat.eqb bind map].
      destruct (py_store_same sr (i + p) (i + p) (py_slice sr (Z.of_nat (i + p - 1)) (Z.of_nat (i + p - 1)))) as (w & Ew & Lw); [lia|rewrite firstn_slice_length; lia|]. rewrite Ew. cbn [bind]. rewrite py_set_ok by lia. cbn [bind]. do 4 eexists. split; [reflexivity|]. rewrite upd_length. lia.
  Qed.
  Lemma round_bad : forall inp sr gens o fa, length inp = length g -> length sr = sum_mem memory -> int_round memory g feedback inp 0 (o, sr, gens, fa) l = Err ValueError.
  Proof.
    intros inp sr gens o fa Li Ls. pose proof total_big as T. unfold int_round. rewrite (py_get_ok memory l 0%nat) by lia. cbn [bind]. rewrite (py_get_ok g l []) by lia. cbn [bind]. rewrite (py_get_ok (nth l g []) 0 0) by (apply Hrow; lia). cbn [bind].
    destruct (dec_len _ _ (Hg l ltac:(lia))) as (gen & Eg & Lg). rewrite Eg. cbn [bind]. destruct (round_reads sr gen l _ o Ls eq_refl Lg ltac:(lia)) as (o' & Eo). rewrite Eo. cbn [bind]. change 0 with (Z.of_nat 0) at 1. rewrite (py_get_ok gen 0 0) by lia. cbn [bind].
    destruct (dec_len _ _ (Hf l ltac:(lia))) as (fbv & Ef & Lf). rewrite Ef. cbn [bind]. rewrite (py_get_ok inp l 0) by lia. cbn [bind]. destruct (Nat.eqb_spec l 0) as [|_]; [lia|]. replace (Z.of_nat l - 1) with (Z.of_nat (l - 1)) by lia. rewrite (py_get_ok memory (l - 1) 0%nat) by lia. cbn [bind].
    set (p := nth (l - 1) memory 0%nat) in *. set (m := nth l memory 0%nat) in *. assert (Hp : (l + p + m - 1 <= sum_mem memory)%nat) by (unfold p; destruct (mem_cases (l - 1) ltac:(lia)) as [E|[_ E]]; rewrite E; lia).
    replace (Z.of_nat l + Z.of_nat p + Z.of_nat m - 1) with (Z.of_nat (l + p + m - 1)) by lia. replace (Z.of_nat l + Z.of_nat p - 1) with (Z.of_nat (l + p - 1)) by lia.
    assert (p = 0 \/ 1 <= p)%nat as [Hp0|Hp0] by lia; [exfalso; unfold p in Hp0; destruct (mem_cases (l - 1) ltac:(lia)) as [E|[_ E]]; rewrite E in Hp0; lia|].
    assert (Lp : length (py_slice sr (Z.of_nat (l + p - 1)) (Z.of_nat (l + p + m - 1))) = m) by (rewrite firstn_slice_length; lia). unfold np_dot, np_broadcast2. rewrite Lf, Lp. destruct (Nat.eqb_spec (m + 1) m) as [|_]; [lia|].
    destruct fbv as [|f0 [|f1 fbv]]; cbn [length] in Lf; try lia. destruct (py_slice sr _ _) as [|x [|y z]]; cbn [length] in Lp; try lia. reflexivity.
  Qed.
  Lemma rounds_bad : forall inp d i sr gens o fa, length inp = length g -> length sr = sum_mem memory -> (i + d = l)%nat -> foldM (int_round memory g feedback inp 0) (seq i (length g - i)) (o, sr, gens, fa) = Err ValueError.
  Proof.
    intros inp d. induction d as [|d IH]; intros i sr gens o fa Li Ls Hd.
    - replace i with l by lia. replace (length g - l)%nat with (S (length g - l - 1)) by lia. cbn [seq foldM]. rewrite round_bad by assumption. reflexivity.
    - replace (length g - i)%nat with (S (length g - S i)) by lia. cbn [seq foldM]. destruct (round_ok inp sr gens o fa i Li Ls ltac:(lia)) as (o' & sr' & gens' & fa' & E & Ls'). rewrite E. cbn [bind]. apply IH; lia.
  Qed.
  Lemma several_bad : forall n, (1 <= n)%nat -> int_entry memory (length g) n g feedback 0 0 = Err ValueError.
  Proof.
    intros n Hn. unfold int_entry. destruct n as [|n]; [lia|]. cbn [seq mapM]. unfold int_output at 1. pose proof (Z.pow_pos_nonneg 2 (Z.of_nat (sum_mem memory)) ltac:(lia) ltac:(lia)). pose proof (Z.pow_pos_nonneg 2 (Z.of_nat (length g)) ltac:(lia) ltac:(lia)). rewrite (fits_dec (Z.of_nat 0) (sum_mem memory)) by lia. cbn [bind]. rewrite (fits_dec (Z.of_nat 0) (length g)) by lia. cbn [bind].
    pose proof (rounds_bad (bits_msb (length g) (Z.of_nat 0)) l 0 (bits_msb (sum_mem memory) (Z.of_nat 0)) [] 0 0) as R. rewrite Nat.sub_0_r in R. rewrite R by (try apply bits_msb_length; lia). reflexivity.
  Qed.
End Several.

Lemma diag_write : forall g n feedback, Forall (fun row => length row = n) g -> (length g <= n)%nat ->
  exists g', foldM (fun g i => row <- py_get g (Z.of_nat i) ;; row <- py_set row (Z.of_nat i) feedback ;; py_set g (Z.of_nat i) row) (seq 0 (length g)) g = Ok g' /\ length g' = length g /\ Forall (fun row => length row = n) g' /\
    forall i j, nth j (nth i g' []) 0 = if (i =? j)%nat && (i <? length g)%nat then feedback else nth j (nth i g []) 0.
Proof.
  intros g n feedback HF Hk.
  assert (G : forall d a h, Forall (fun row => length row = n) h -> length h = length g -> (a + d = length g)%nat ->
    exists g', foldM (fun g i => row <- py_get g (Z.of_nat i) ;; row <- py_set row (Z.of_nat i) feedback ;; py_set g (Z.of_nat i) row) (seq a d) h = Ok g' /\ length g' = length g /\ Forall (fun row => length row = n) g' /\
    forall i j, nth j (nth i g' []) 0 = if (i =? j)%nat && (a <=? i)%nat && (i <? length g)%nat then feedback else nth j (nth i h []) 0).
  { induction d as [|d IH]; intros a h Fh Lh Ha.
    - exists h. cbn [seq foldM]. repeat split; auto. intros i j. replace ((i =? j)%nat && (a <=? i)%nat && (i <? length g)%nat) with false by lia. reflexivity.
    - cbn [seq foldM]. rewrite (py_get_ok h a []) by lia. cbn [bind]. assert (Lr : length (nth a h []) = n) by (rewrite Forall_forall in Fh; apply Fh, nth_In; lia). rewrite py_set_ok by lia. cbn [bind]. rewrite py_set_ok by lia. cbn [bind].
      destruct (IH (S a) (upd h a (upd (nth a h []) a feedback))) as (g' & E & L & F & N).
      + apply Forall_forall. intros x Hx. apply (In_nth _ _ []) in Hx as (i & Hi & <-). rewrite upd_length in Hi. destruct (Nat.eq_dec i a) as [->|Hne]; [rewrite nth_upd_eq by lia; rewrite upd_length; exact Lr|rewrite nth_upd_neq by exact Hne; rewrite Forall_forall in Fh; apply Fh, nth_In; exact Hi].
      + rewrite upd_length. exact Lh.
      + lia.
      + exists g'. split; [exact E|]. split; [exact L|]. split; [exact F|]. intros i j. rewrite N. destruct (Nat.eq_dec i a) as [->|Hne].
        * replace ((a =? j)%nat && (S a <=? a)%nat && (a <? length g)%nat) with false by lia. rewrite nth_upd_eq by lia. destruct (Nat.eq_dec j a) as [->|Hj]; [rewrite nth_upd_eq by lia|rewrite nth_upd_neq by exact Hj]; [replace ((a =? a)%nat && (a <=? a)%nat && (a <? length g)%nat) with true by lia|replace ((a =? j)%nat && (a <=? a)%nat && (a <? length g)%nat) with false by lia]; reflexivity.
        * rewrite nth_upd_neq by exact Hne. replace (S a <=? i)%nat with (a <=? i)%nat by lia. reflexivity. }
  destruct (G (length g) 0%nat g HF eq_refl ltac:(lia)) as (g' & E & L & F & N). exists g'. split; [exact E|]. split; [exact L|]. split; [exact F|]. intros i j. rewrite N. replace ((i =? j)%nat && (0 <=? i)%nat) with (i =? j)%nat by lia. reflexivity.
Qed.
Lemma several_inputs : forall memory n g feedback rsc l, length memory = length g -> Forall (fun row => length row = n) g -> (1 <= n)%nat -> (rsc = true -> (length g <= n)%nat) -> (1 <= l < length g)%nat ->
  (1 <= nth 0 memory 0)%nat -> (forall i, (1 <= i < l)%nat -> nth i memory 0%nat = 1%nat) -> (2 <= nth l memory 0)%nat ->
  (forall i, (i <= l)%nat -> 0 <= nth 0 (nth i g []) 0 < 2 ^ (2 * Z.of_nat (nth i memory 0%nat + 1)) /\ 0 <= feedback < 2 ^ (2 * Z.of_nat (nth i memory 0%nat + 1))) ->
  make_trellis_int memory n g feedback rsc = Err ValueError.
Proof.
  intros memory n g feedback rsc l Hlen HF Hn Hk Hl H0 H1 H2 Hfit. unfold make_trellis_int.
  assert (G : forall h, length h = length g -> Forall (fun row => length row = n) h -> (forall i, (i <= l)%nat -> 0 <= nth 0 (nth i h []) 0 < 2 ^ (2 * Z.of_nat (nth i memory 0%nat + 1))) ->
    mapM (fun s => mapM (fun u => int_entry memory (length g) n h feedback s u) (seq 0 (2 ^ length g))) (seq 0 (2 ^ sum_mem memory)) = Err ValueError).
  { intros h Lh Fh Hh. assert (P : forall m, exists x, (2 ^ m = S x)%nat) by (intros m; pose proof (Nat.pow_nonzero 2 m ltac:(lia)); exists (2 ^ m - 1)%nat; lia). destruct (P (sum_mem memory)) as (x & ->). destruct (P (length g)) as (y & ->). cbn [seq mapM]. rewrite <- Lh. rewrite (several_bad memory h feedback l); try lia; auto.
    - intros i Hi. rewrite Forall_forall in Fh. rewrite Fh by (apply nth_In; lia). lia.
    - intros i Hi. apply (Hfit i Hi). }
  destruct rsc.
  - destruct (diag_write g n feedback HF (Hk eq_refl)) as (g' & E & L & F & N). rewrite E. cbn [bind]. rewrite (G g' L F); [reflexivity|]. intros i Hi. rewrite N. destruct (_ && _); apply (Hfit i Hi).
  - cbn [bind]. rewrite (G g eq_refl HF); [reflexivity|]. intros i Hi. apply (Hfit i Hi).
Qed.

(* an empty first register: shift_register[0:-1] is assigned to an empty slice *)
Lemma empty_first : forall memory n g feedback rsc e, length memory = length g -> Forall (fun row => length row = n) g -> (1 <= n)%nat -> (1 <= length g)%nat -> (rsc = true -> (length g <= n)%nat) ->
  nth 0 memory 0%nat = 0%nat -> 0 <= nth 0 (nth 0 g []) 0 < 4 -> 0 <= feedback < 4 ->
  (3 <= sum_mem memory)%nat /\ e = ValueError \/ sum_mem memory = 0%nat /\ e = IndexError ->
  make_trellis_int memory n g feedback rsc = Err e.
Proof.
  intros memory n g feedback rsc e Hlen HF Hn Hl Hk H0 Hg Hf Hcase. unfold make_trellis_int.
  assert (R : forall h inp sr, length h = length g -> Forall (fun row => length row = n) h -> 0 <= nth 0 (nth 0 h []) 0 < 4 -> length inp = length g -> length sr = sum_mem memory -> int_round memory h feedback inp 0 (0, sr, [], 0) 0 = Err e).
  { intros h inp sr Lh Fh Hh Li Ls. unfold int_round. rewrite (py_get_ok memory 0 0%nat) by lia. cbn [bind]. rewrite (py_get_ok h 0 []) by lia. cbn [bind]. rewrite (py_get_ok (nth 0 h []) 0 0) by (rewrite Forall_forall in Fh; rewrite Fh by (apply nth_In; lia); lia). cbn [bind]. rewrite H0.
    destruct (dec_len (nth 0 (nth 0 h []) 0) (0 + 1) ltac:(exact Hh)) as (gen & Eg & Lg). rewrite Eg. cbn [bind seq foldM]. change 0 with (Z.of_nat 0) at 1. rewrite (py_get_ok gen 0 0) by lia. cbn [bind].
    destruct (dec_len feedback (0 + 1) ltac:(exact Hf)) as (fbv & Ef & Lf). rewrite Ef. cbn [bind]. rewrite (py_get_ok inp 0 0) by lia. cbn [bind Nat.eqb].
    destruct fbv as [|f0 [|]]; cbn [length] in Lf; try lia. cbn [tl].
    assert (E1 : py_slice sr 0 (Z.of_nat 0) = []) by (unfold py_slice, py_bound; cbn [Z.of_nat Z.ltb Z.compare]; rewrite Z.min_l by lia; reflexivity). rewrite E1. cbn [np_dot np_broadcast2 length Nat.eqb combine bind map]. change (Z.of_nat 0 - 1) with (-1).
    assert (E2 : length (py_slice sr 0 (-1)) = (sum_mem memory - 1)%nat). { unfold py_slice, py_bound. cbn [Z.ltb Z.compare]. rewrite Z.min_l by lia. cbn [Z.to_nat skipn]. rewrite firstn_length, Ls. lia. }
    unfold py_store. rewrite E2. replace (py_bound (length sr) (Z.of_nat 0)) with 0%nat by (unfold py_bound; cbn [Z.of_nat Z.ltb Z.compare]; rewrite Z.min_l by lia; reflexivity). cbn [Nat.sub].
    destruct Hcase as [[Ht ->]|[Ht ->]].
    - destruct (Nat.eqb_spec (sum_mem memory - 1) 0) as [F|_]; [lia|]. destruct (py_slice sr 0 (-1)) as [|x [|y z]]; cbn [length] in E2; try lia. reflexivity.
    - rewrite Ht in *. cbn [Nat.sub Nat.eqb bind]. destruct sr as [|]; [|discriminate Ls]. destruct (py_slice [] 0 (-1)); [|discriminate E2]. reflexivity. }
  assert (G : forall h, length h = length g -> Forall (fun row => length row = n) h -> 0 <= nth 0 (nth 0 h []) 0 < 4 ->
    mapM (fun s => mapM (fun u => int_entry memory (length g) n h feedback s u) (seq 0 (2 ^ length g))) (seq 0 (2 ^ sum_mem memory)) = Err e).
  { intros h Lh Fh Hh. assert (P : forall m, exists x, (2 ^ m = S x)%nat) by (intros m; pose proof (Nat.pow_nonzero 2 m ltac:(lia)); exists (2 ^ m - 1)%nat; lia). destruct (P (sum_mem memory)) as (x & ->). destruct (P (length g)) as (y & ->). cbn [seq mapM].
    unfold int_entry at 1. destruct n as [|n']; [lia|]. cbn [seq mapM]. unfold int_output at 1. pose proof (Z.pow_pos_nonneg 2 (Z.of_nat (sum_mem memory)) ltac:(lia) ltac:(lia)). pose proof (Z.pow_pos_nonneg 2 (Z.of_nat (length g)) ltac:(lia) ltac:(lia)). rewrite (fits_dec (Z.of_nat 0) (sum_mem memory)) by lia. cbn [bind]. rewrite (fits_dec (Z.of_nat 0) (length g)) by lia. cbn [bind].
    destruct (length g) as [|k'] eqn:Ek; [lia|]. cbn [seq foldM]. rewrite <- Ek. rewrite (R h) by (rewrite ?bits_msb_length; first [lia|assumption]). reflexivity. }
  destruct rsc.
  - destruct (diag_write g n feedback HF (Hk eq_refl)) as (g' & E & L & F & N). rewrite E. cbn [bind]. rewrite (G g' L F); [reflexivity|]. rewrite N. destruct (_ && _); assumption.
  - cbn [bind]. rewrite (G g eq_refl HF Hg). reflexivity.
Qed.

(* LegacyProofs.legacy_spec for the constructor *)
Lemma legacy_spec (mem n : nat) (g_row : list Z) (feedback : Z) (rsc : bool) : (1 <= mem)%nat -> (1 <= n <= length g_row)%nat ->
  (forall r, (r < n)%nat -> 0 <= nth r g_row 0 < 2 ^ Z.of_nat (mem + 1)) -> 0 <= feedback < 2 ^ Z.of_nat (mem + 1) ->
  let row := if rsc then upd g_row 0 feedback else g_row in
  exists tr, make_trellis_int [mem] n [g_row] feedback rsc = Ok (tr, [row]) /\
    tr_k tr = 1%nat /\ tr_n tr = n /\ tr_M tr = mem /\ tr_rsc tr = rsc /\ valid_trellis tr /\
    forall s u, 0 <= s < 2 ^ Z.of_nat mem -> 0 <= u < 2 ->
      let o := entry (tr_out tr) s u in let s' := entry (tr_next tr) s u in
      0 <= o < 2 ^ Z.of_nat n /\ 0 <= s' < 2 ^ Z.of_nat mem /\
      (forall r, (r < n)%nat -> Z.testbit o (Z.of_nat n - 1 - Z.of_nat r) = legacy_out mem n row feedback s u r) /\
      (forall d, (1 <= d <= mem)%nat -> lcoef mem s' d = if (d =? 1)%nat then xorb (Z.testbit u 0) (lsum mem feedback s) else lcoef mem s (d - 1)).
Proof. intros Hm Hn Hg Hf row. rewrite one_input by assumption. destruct (LegacyProofs.legacy_spec mem n g_row feedback rsc Hm Hn Hg Hf) as (tr & E & H). exists tr. rewrite E. split; [reflexivity|exact H]. Qed.

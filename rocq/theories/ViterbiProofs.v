(* The add-compare-select recursion keeps optimal survivors; the traceback reads them off. *)
From Verif Require Import Base UtilModel UtilProofs TrellisModel TrellisSpec TrellisProofs ConvProofs ViterbiModel.

(* ---------------------------------------------------------------- argmin *)
Section Argmin.
Context {A : Type} (leb : A -> A -> bool).
Hypothesis leb_refl : forall a, leb a a = true.
Hypothesis leb_trans : forall a b c, leb a b = true -> leb b c = true -> leb a c = true.
Hypothesis leb_total : forall a b, leb a b = true \/ leb b a = true.

Definition oleb (a b : option A) : bool := negb (olt leb b a).
Lemma oleb_refl a : oleb a a = true.
Proof. destruct a as [a|]; [|reflexivity]. unfold oleb, olt. rewrite leb_refl. reflexivity. Qed.
Lemma oleb_trans a b c : oleb a b = true -> oleb b c = true -> oleb a c = true.
Proof.
  destruct a as [a|], b as [b|], c as [c|]; unfold oleb, olt; cbn [negb]; try congruence; rewrite ?negb_involutive.
  - apply leb_trans.
Qed.
Lemma olt_oleb a b : olt leb a b = true -> oleb a b = true.
Proof.
  destruct a as [a|], b as [b|]; unfold oleb, olt; cbn [negb]; try congruence; rewrite ?negb_involutive.
  intros H. destruct (leb_total a b) as [E|E]; [exact E|]. rewrite E in H. discriminate.
Qed.
Lemma olt_false a b : olt leb a b = false -> oleb b a = true.
Proof. intros H. unfold oleb. rewrite H. reflexivity. Qed.

Lemma argmin_from_spec l : forall best bv i, let r := argmin_from leb best bv i l in
  (r = best /\ oleb bv bv = true /\ (forall j, (j < length l)%nat -> oleb bv (nth j l None) = true)) \/
  (exists j, (j < length l)%nat /\ r = (i + j)%nat /\ olt leb (nth j l None) bv = true /\ (forall j', (j' < length l)%nat -> oleb (nth j l None) (nth j' l None) = true)).
Proof.
  induction l as [|v l IH]; intros best bv i; cbn zeta.
  - left. split; [reflexivity|]. split; [apply oleb_refl|]. cbn. lia.
  - cbn [argmin_from]. destruct (olt leb v bv) eqn:E.
    + right. specialize (IH i v (S i)). cbn zeta in IH. destruct IH as [(-> & _ & H)|(j & Hj & -> & Hlt & H)].
      * exists 0%nat. cbn [length nth]. split; [lia|]. split; [lia|]. split; [exact E|]. intros [|j'] Hj'; cbn [nth]; [apply oleb_refl|apply H; lia].
      * exists (S j). cbn [length nth]. split; [lia|]. split; [lia|].
        split.
        { destruct (olt leb (nth j l None) bv) eqn:E2; [reflexivity|]. apply olt_false in E2. apply olt_oleb in E.
          pose proof (oleb_trans _ _ _ E E2) as H3. unfold oleb in H3. rewrite Hlt in H3. discriminate. }
        intros [|j'] Hj'; cbn [nth]; [apply olt_oleb; exact Hlt|apply H; lia].
    + specialize (IH best bv (S i)). cbn zeta in IH. destruct IH as [(-> & _ & H)|(j & Hj & -> & Hlt & H)].
      * left. split; [reflexivity|]. split; [apply oleb_refl|]. intros [|j'] Hj'; cbn [nth length] in *; [apply olt_false; exact E|apply H; lia].
      * right. exists (S j). cbn [length nth]. split; [lia|]. split; [lia|]. split; [exact Hlt|].
        intros [|j'] Hj'; cbn [nth]; [apply oleb_trans with bv; [apply olt_oleb; exact Hlt|apply olt_false; exact E]|apply H; lia].
Qed.

Lemma argmin_spec l : l <> [] -> (argmin leb l < length l)%nat /\ forall j, (j < length l)%nat -> oleb (nth (argmin leb l) l None) (nth j l None) = true.
Proof.
  destruct l as [|v l]; [contradiction|]. intros _. unfold argmin. destruct (argmin_from_spec l 0 v 1) as [(-> & _ & H)|(j & Hj & -> & Hlt & H)]; cbn zeta.
  - split; [cbn; lia|]. intros [|j] Hj; cbn [nth]; [apply oleb_refl|apply H; cbn in Hj; lia].
  - split; [cbn; lia|]. change (nth (1 + j) (v :: l) None) with (nth j l None). intros [|j'] Hj'; cbn [nth]; [apply olt_oleb; exact Hlt|apply H; cbn in Hj'; lia].
Qed.
Lemma argmin_first l : (0 < argmin leb l)%nat -> olt leb (nth (argmin leb l) l None) (nth 0 l None) = true.
Proof.
  destruct l as [|v l]; [cbn; lia|]. unfold argmin. destruct (argmin_from_spec l 0 v 1) as [(-> & _ & H)|(j & Hj & -> & Hlt & H)]; cbn zeta; [lia|]. intros _. exact Hlt.
Qed.
End Argmin.

(* ---------------------------------------------------------------- the trellis seen backwards *)
Lemma in_where tr v s u : In (s, u) (where_list tr v) <->
  (0 <= s < 2 ^ Z.of_nat (tr_M tr) /\ 0 <= u < 2 ^ Z.of_nat (tr_k tr) /\ entry (tr_next tr) s u = v).
Proof.
  unfold where_list. rewrite in_flat_map. unfold number_states, number_inputs, entry. rewrite <- !(Nat2Z.inj_pow 2). split.
  - intros (i & Hi & H). apply in_flat_map in H. destruct H as (j & Hj & H). apply in_seq in Hi, Hj.
    destruct (nth j (nth i (tr_next tr) []) (-1) =? v) eqn:E; [|contradiction]. destruct H as [H|[]]. injection H as <- <-.
    rewrite !Nat2Z.id. lia.
  - intros (Hs & Hu & E). exists (Z.to_nat s). split; [apply in_seq; lia|]. apply in_flat_map. exists (Z.to_nat u). split; [apply in_seq; lia|].
    rewrite (proj2 (Z.eqb_eq _ _) E). left. f_equal; lia.
Qed.

Section Pure.
Context {A X : Type} (add : A -> A -> A) (leb : A -> A -> bool) (zero : A).
Hypothesis leb_refl : forall a, leb a a = true.
Hypothesis leb_trans : forall a b c, leb a b = true -> leb b c = true -> leb a c = true.
Hypothesis leb_total : forall a b, leb a b = true \/ leb b a = true.
Hypothesis add_mono : forall a b c, leb a b = true -> leb (add a c) (add b c) = true.
Context (tr : Trellis) (bm : list X -> list Z -> A) (rs : nat -> list X).
Hypothesis Hval : valid_trellis tr.
Hypothesis Hin : forall s, (s < number_states tr)%nat -> length (where_list tr (Z.of_nat s)) = number_inputs tr.
Local Notation nx := (entry (tr_next tr)).
Local Notation ox := (entry (tr_out tr)).
Local Notation k := (tr_k tr).
Local Notation n := (tr_n tr).
Local Notation NS := (number_states tr).

Definition bmet (r : list X) (p : Z * Z) : A := bm r (bits_msb n (ox (fst p) (snd p))).
(* accumulated metric of the path from state s with inputs us *)
Fixpoint cost (acc : A) (s : Z) (us : list Z) (ws : list (list X)) : A :=
  match us, ws with
  | u :: us', r :: ws' => cost (add acc (bmet r (s, u))) (nx s u) us' ws'
  | _, _ => acc
  end.
Lemma cost_app us : forall acc s ws us' ws', length us = length ws ->
  cost acc s (us ++ us') (ws ++ ws') = cost (cost acc s us ws) (walk nx s us) us' ws'.
Proof. induction us as [|u us IH]; intros acc s [|r ws] us' ws' H; try discriminate; [reflexivity|]. cbn [app cost walk]. apply IH. cbn in H. lia. Qed.

Definition cand (pm : list (option A)) (r : list X) (s : nat) : list (option A) :=
  map (fun p => oadd add (nth (Z.to_nat (fst p)) pm None) (bmet r p)) (where_list tr (Z.of_nat s)).
Definition sel (pm : list (option A)) (r : list X) (s : nat) : Z * Z := nth (argmin leb (cand pm r s)) (where_list tr (Z.of_nat s)) (0, 0).
Definition met (pm : list (option A)) (r : list X) (s : nat) : option A := nth (argmin leb (cand pm r s)) (cand pm r s) None.

Fixpoint pml (t : nat) : list (option A) :=
  match t with
  | O => upd (repeat None NS) 0 (Some zero)
  | S t => map (met (pml t) (rs (S t))) (seq 0 NS)
  end.
(* the decision taken at time t in state s *)
Definition dec (t : nat) (s : nat) : Z * Z := sel (pml (t - 1)) (rs t) s.
Fixpoint surv (t : nat) (s : nat) : list Z :=
  match t with
  | O => []
  | S t => surv t (Z.to_nat (fst (dec (S t) s))) ++ [snd (dec (S t) s)]
  end.
Definition words (t : nat) : list (list X) := map rs (seq 1 t).
Definition vin (us : list Z) := Forall (fun u => 0 <= u < 2 ^ Z.of_nat k) us.

Lemma NS_pos : (0 < NS)%nat. Proof. unfold number_states. apply Nat.neq_0_lt_0, Nat.pow_nonzero. discriminate. Qed.
Lemma NI_pos : (0 < number_inputs tr)%nat. Proof. unfold number_inputs. apply Nat.neq_0_lt_0, Nat.pow_nonzero. discriminate. Qed.
Lemma NS_Z : Z.of_nat NS = 2 ^ Z.of_nat (tr_M tr). Proof. unfold number_states. rewrite Nat2Z.inj_pow. reflexivity. Qed.
Lemma pml_length t : length (pml t) = NS.
Proof. destruct t; cbn [pml]; [rewrite upd_length; apply repeat_length|apply map_seq_length]. Qed.
Lemma cand_length pm r s : (s < NS)%nat -> length (cand pm r s) = number_inputs tr.
Proof using Hin. intros H. unfold cand. rewrite map_length. apply Hin. exact H. Qed.
Lemma cand_nonempty pm r s : (s < NS)%nat -> cand pm r s <> [].
Proof using Hin. intros H E. pose proof (cand_length pm r s H) as L. rewrite E in L. cbn in L. pose proof NI_pos as P. clear - L P. lia. Qed.
Lemma sel_in pm r s : (s < NS)%nat -> In (sel pm r s) (where_list tr (Z.of_nat s)).
Proof.
  intros H. apply nth_In. rewrite (Hin s H), <- (cand_length pm r s H). apply (argmin_spec leb); auto. apply cand_nonempty. exact H.
Qed.
Lemma met_sel pm r s : (s < NS)%nat -> met pm r s = oadd add (nth (Z.to_nat (fst (sel pm r s))) pm None) (bmet r (sel pm r s)).
Proof.
  intros H. unfold met, sel. unfold cand at 2.
  refine (nth_map_lt (fun p => oadd add (nth (Z.to_nat (fst p)) pm None) (bmet r p)) _ _ (0, 0) None _). rewrite (Hin s H), <- (cand_length pm r s H).
  apply (argmin_spec leb); auto. apply cand_nonempty. exact H.
Qed.
Lemma met_min pm r s p : (s < NS)%nat -> In p (where_list tr (Z.of_nat s)) ->
  oleb leb (met pm r s) (oadd add (nth (Z.to_nat (fst p)) pm None) (bmet r p)) = true.
Proof.
  intros H Hp. destruct (In_nth _ _ (0, 0) Hp) as (j & Hj & E). rewrite <- E.
  rewrite <- (nth_map_lt (fun p => oadd add (nth (Z.to_nat (fst p)) pm None) (bmet r p)) _ _ (0, 0) None Hj).
  unfold met. apply (argmin_spec leb leb_refl leb_trans leb_total (cand pm r s)); [apply cand_nonempty; exact H|].
  unfold cand. rewrite map_length. exact Hj.
Qed.
Lemma pml_S t s : (s < NS)%nat -> nth s (pml (S t)) None = met (pml t) (rs (S t)) s.
Proof. intros H. cbn [pml]. apply nth_map_seq. exact H. Qed.

Lemma dec_range t s : (s < NS)%nat -> 0 <= fst (dec t s) < Z.of_nat NS /\ 0 <= snd (dec t s) < 2 ^ Z.of_nat k /\ nx (fst (dec t s)) (snd (dec t s)) = Z.of_nat s.
Proof.
  intros H. pose proof (sel_in (pml (t - 1)) (rs t) s H) as E. fold (dec t s) in E. destruct (dec t s) as [p u]. apply in_where in E. rewrite NS_Z. exact E.
Qed.

Lemma words_S t : words (S t) = words t ++ [rs (S t)].
Proof. unfold words. rewrite seq_S, map_app. reflexivity. Qed.
Lemma words_length t : length (words t) = t. Proof. apply map_seq_length. Qed.

Lemma surv_length t : forall s, length (surv t s) = t.
Proof using. induction t as [|t IH]; intros s; [reflexivity|]. cbn [surv]. rewrite app_length, IH. apply Nat.add_comm. Qed.
Lemma surv_vin t : forall s, (s < NS)%nat -> vin (surv t s).
Proof.
  induction t as [|t IH]; intros s H; [constructor|]. cbn [surv]. pose proof (dec_range (S t) s H). apply Forall_app. split; [apply IH; lia|].
  constructor; [lia|constructor].
Qed.

(* a finite metric is the cost of the survivor *)
Lemma surv_cost t : forall s c, (s < NS)%nat -> nth s (pml t) None = Some c ->
  walk nx 0 (surv t s) = Z.of_nat s /\ cost zero 0 (surv t s) (words t) = c.
Proof.
  induction t as [|t IH]; intros s c H E.
  - cbn [pml] in E. rewrite nth_upd in E. destruct ((s =? 0)%nat && (0 <? length (repeat (@None A) NS))%nat) eqn:E0.
    + injection E as <-. apply andb_prop in E0. destruct E0 as [E0 _]. apply Nat.eqb_eq in E0. subst s. split; reflexivity.
    + rewrite nth_repeat_same in E. discriminate.
  - rewrite pml_S, met_sel in E by exact H. pose proof (dec_range (S t) s H) as (D1 & D2 & D3).
    unfold dec in D1, D2, D3. cbn [surv]. unfold dec. replace (S t - 1)%nat with t in * by lia.
    destruct (sel (pml t) (rs (S t)) s) as [p u]. cbn [fst snd] in *.
    destruct (nth (Z.to_nat p) (pml t) None) as [c0|] eqn:E1; [|discriminate]. injection E as <-.
    destruct (IH (Z.to_nat p) c0 ltac:(lia) E1) as [W Cc]. rewrite walk_app, W, words_S.
    rewrite cost_app by (rewrite surv_length, words_length; reflexivity). rewrite W, Cc, Z2Nat.id by lia. cbn [walk cost]. split; [exact D3|reflexivity].
Qed.

(* every path costs at least the metric of its end state *)
Lemma pml_min t : forall us, length us = t -> vin us ->
  exists c, nth (Z.to_nat (walk nx 0 us)) (pml t) None = Some c /\ leb c (cost zero 0 us (words t)) = true /\ 0 <= walk nx 0 us < Z.of_nat NS.
Proof.
  induction t as [|t IH]; intros us L V.
  - destruct us; [|discriminate]. cbn [walk cost pml]. exists zero. pose proof NS_pos. split; [|split; [apply leb_refl|lia]].
    rewrite nth_upd, repeat_length. change (Z.to_nat 0) with 0%nat. destruct (0 <? NS)%nat eqn:E; [reflexivity|]. apply Nat.ltb_ge in E. lia.
  - destruct us as [|u0 us0] using rev_ind; [discriminate|]. clear IHus0. rename us0 into us, u0 into u. rewrite app_length in L. cbn in L.
    apply Forall_app in V. destruct V as [V Vu]. inversion Vu as [|? ? Hu _]; subst. destruct (IH us ltac:(lia) V) as (c & E & Hc & R).
    rewrite walk_app. cbn [walk]. set (s := walk nx 0 us) in *. pose proof NS_Z as HZ.
    destruct (proj2 (proj2 Hval) s u ltac:(lia) Hu) as (_ & R' & _).
    rewrite pml_S by lia. pose proof (met_min (pml t) (rs (S t)) (Z.to_nat (nx s u)) (s, u) ltac:(lia)) as Hm.
    rewrite Z2Nat.id in Hm by lia. specialize (Hm ltac:(apply in_where; repeat split; lia)). cbn [fst] in Hm. rewrite E in Hm.
    unfold oleb, olt in Hm. cbn [oadd] in Hm. destruct (met (pml t) (rs (S t)) (Z.to_nat (nx s u))) as [c'|]; [|discriminate].
    rewrite negb_involutive in Hm. exists c'. split; [reflexivity|]. split; [|lia].
    rewrite words_S, cost_app by (rewrite words_length; lia). cbn [cost]. fold s.
    eapply leb_trans; [exact Hm|]. apply add_mono. exact Hc.
Qed.

(* the survivor of the best state is optimal among all input sequences *)
Definition best (t : nat) : nat := argmin leb (pml t).
Lemma best_lt t : (best t < NS)%nat.
Proof. clear add_mono. rewrite <- (pml_length t). apply (argmin_spec leb); auto. intros E. pose proof (pml_length t) as L. rewrite E in L. cbn in L. pose proof NS_pos. lia. Qed.
Lemma best_optimal t us : length us = t -> vin us -> leb (cost zero 0 (surv t (best t)) (words t)) (cost zero 0 us (words t)) = true.
Proof.
  intros L V. destruct (pml_min t us L V) as (c & E & Hc & R).
  assert (Hmin : oleb leb (nth (best t) (pml t) None) (nth (Z.to_nat (walk nx 0 us)) (pml t) None) = true).
  { apply (argmin_spec leb leb_refl leb_trans leb_total (pml t)). { intros E0. pose proof (pml_length t) as L0. rewrite E0 in L0. cbn in L0. pose proof NS_pos. lia. }
    rewrite pml_length. lia. }
  rewrite E in Hmin. unfold oleb, olt in Hmin. destruct (nth (best t) (pml t) None) as [c'|] eqn:E'; [|discriminate]. rewrite negb_involutive in Hmin.
  destruct (surv_cost t (best t) c' (best_lt t) E') as [_ ->]. eapply leb_trans; [exact Hmin|exact Hc].
Qed.
(* ties between end states go to the first state *)
Lemma best_strict t us : length us = t -> vin us -> walk nx 0 us = 0 -> walk nx 0 (surv t (best t)) <> 0 -> leb (cost zero 0 us (words t)) (cost zero 0 (surv t (best t)) (words t)) = false.
Proof.
  intros L V W0 W1. destruct (pml_min t us L V) as (c & E & Hc & R). rewrite W0 in E. change (Z.to_nat 0) with 0%nat in E.
  destruct (nth (best t) (pml t) None) as [c'|] eqn:E'.
  - destruct (surv_cost t (best t) c' (best_lt t) E') as [W2 C2]. rewrite W2 in W1. rewrite C2. pose proof (argmin_first leb leb_refl leb_trans leb_total (pml t)) as F. fold (best t) in F. specialize (F ltac:(lia)). rewrite E, E' in F. cbn [olt] in F.
    destruct (leb (cost zero 0 us (words t)) c') eqn:Q; [|reflexivity]. rewrite (leb_trans _ _ _ Hc Q) in F. discriminate.
  - exfalso. pose proof (argmin_first leb leb_refl leb_trans leb_total (pml t)) as F. fold (best t) in F. destruct (Nat.eq_dec (best t) 0) as [Z0|NZ]; [rewrite Z0, E in E'; discriminate|]. specialize (F ltac:(lia)). rewrite E' in F. destruct (nth 0 (pml t) None); discriminate.
Qed.
End Pure.

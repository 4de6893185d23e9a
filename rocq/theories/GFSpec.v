(* Vocabulary of the Galois-field theorems, and poly_to_string. *)
From Verif Require Import Base UtilModel GFModel.
From Coq Require Import Sorted.

(* GF(2^m) with the polynomial the library's table gives for m: 1 <= m <= 16 *)
Definition field_of (m : nat) (pp : Z) : Prop := (1 <= m)%nat /\ nth_error primpoly_array m = Some pp.

(* a nonempty array of elements 0 .. 2^m - 1 *)
Definition in_field (m : nat) (a : list Z) : Prop := a <> [] /\ Forall (fun z => 0 <= z < 2 ^ Z.of_nat m) a.

(* the GF object holding the array a: what GF(a, m) returns *)
Definition gf (m : nat) (pp : Z) (a : list Z) : GF := {| gf_m := m; gf_prim := pp; gf_elements := Some a |}.

Lemma gf_constructor m pp a : nth_error primpoly_array m = Some pp -> a <> [] -> GF_arr a m = Ok (gf m pp a).
Proof. intros H Hn. unfold GF_arr. rewrite H. destruct a; [contradiction|reflexivity]. Qed.

Lemma pts_loop_spec fuel : forall x i, 0 <= x -> 0 <= i -> (Z.to_nat (if Z.eqb x 0 then 0 else Z.log2 x + 1) < fuel)%nat ->
  exists l, pts_loop fuel x i = Ok l /\ StronglySorted Z.lt l /\
    forall j, In j l <-> i <= j /\ Z.testbit x (j - i) = true.
Proof.
  induction fuel as [|fuel IH]; intros x i Hx Hi Hf; [lia|].
  cbn [pts_loop]. destruct (Z.eqb_spec x 0) as [->|Hn].
  - exists []. split; [reflexivity|]. split; [constructor|]. intros j. rewrite Z.bits_0. cbn. intuition discriminate.
  - assert (Hs : Z.shiftr x 1 = x / 2) by (rewrite Z.shiftr_div_pow2 by lia; reflexivity).
    destruct (IH (Z.shiftr x 1) (i + 1)) as (l & E & Hsort & Hin).
    { rewrite Hs. apply Z.div_pos; lia. }
    { lia. }
    { rewrite Hs. destruct (Z.eqb_spec (x / 2) 0) as [E0|E0]; [pose proof (Z.log2_nonneg x); lia|].
      assert (Hl : Z.log2 x = Z.log2 (x / 2) + 1).
      { assert (Hx2 : 0 < x / 2) by (pose proof (Z.div_pos x 2); lia).
        pose proof (Z.log2_spec (x / 2) Hx2) as [H1 H2]. apply Z.log2_unique; [pose proof (Z.log2_nonneg (x / 2)); lia|].
        replace (Z.succ (Z.log2 (x / 2) + 1)) with (Z.succ (Z.succ (Z.log2 (x / 2)))) by lia.
        replace (Z.log2 (x / 2) + 1) with (Z.succ (Z.log2 (x / 2))) by lia.
        rewrite !Z.pow_succ_r in * by (pose proof (Z.log2_nonneg (x / 2)); lia). dlia. }
      pose proof (Z.log2_nonneg (x / 2)). lia. }
    rewrite E. cbn [bind].
    assert (Hshift : forall j, i + 1 <= j -> Z.testbit (Z.shiftr x 1) (j - (i + 1)) = Z.testbit x (j - i)).
    { intros j Hj. rewrite Z.shiftr_spec by lia. f_equal. lia. }
    assert (Hlow : Z.testbit x 0 = (x mod 2 =? 1)).
    { rewrite Z.bit0_odd, Zmod_odd. destruct (Z.odd x); reflexivity. }
    destruct (x mod 2 =? 1) eqn:Eo.
    + exists (i :: l). split; [reflexivity|]. split.
      * constructor; [exact Hsort|]. apply Forall_forall. intros j Hj. apply Hin in Hj. lia.
      * intros j. cbn [In]. rewrite Hin. split.
        -- intros [<-|[H1 H2]]; [split; [lia|]; rewrite Z.sub_diag; exact Hlow|]. split; [lia|]. rewrite <- Hshift by lia. exact H2.
        -- intros [H1 H2]. destruct (Z.eq_dec i j) as [|Hne]; [left; assumption|right]. split; [lia|]. rewrite Hshift by lia. exact H2.
    + exists l. split; [reflexivity|]. split; [exact Hsort|]. intros j. rewrite Hin. split.
      * intros [H1 H2]. split; [lia|]. rewrite <- Hshift by lia. exact H2.
      * intros [H1 H2]. destruct (Z.eq_dec i j) as [<-|Hne]; [rewrite Z.sub_diag in H2; congruence|]. split; [lia|]. rewrite Hshift by lia. exact H2.
Qed.

Lemma poly_to_string_spec x : 0 <= x -> exists l, poly_to_string x = Ok l /\ StronglySorted Z.lt l /\
  (forall i, In i l <-> 0 <= i /\ Z.testbit x i = true).
Proof.
  intros Hx. destruct (pts_loop_spec (Z.to_nat (bin_len x) + 1) x 0) as (l & E & H1 & H2); try lia.
  { unfold bin_len. destruct (Z.eqb_spec x 0); lia. }
  exists l. split; [exact E|]. split; [exact H1|]. intros i. rewrite H2, Z.sub_0_r. reflexivity.
Qed.

(* Boolean test for [describes], used on concrete matrices only. *)
From Verif Require Import Base LdpcModel LdpcSpec.
Open Scope Z_scope.

Definition binaryb (H : arr2) : bool :=
  forallb (fun r => (length r =? a_cols H)%nat && forallb (fun x => (x =? 0) || (x =? 1)) r) (a_rows H).
Definition describesb (p : ldpc) (H : arr2) : bool :=
  binaryb H && (n_vnodes p =? a_cols H)%nat && (n_cnodes p =? length (a_rows H))%nat &&
  (length (c_adj p) =? n_cnodes p * max_cdeg p)%nat && (length (c_deg p) =? n_cnodes p)%nat &&
  forallb (fun c => let d := nth c (c_deg p) 0 in let nb i := nth (c * max_cdeg p + i) (c_adj p) (-1) in
    (0 <=? d) && (d <=? Z.of_nat (max_cdeg p)) &&
    forallb (fun i => (0 <=? nb i) && (nb i <? Z.of_nat (n_vnodes p))) (seq 0 (Z.to_nat d)) &&
    forallb (fun j => Bool.eqb (hij (a_rows H) c j =? 1) (existsb (fun i => nb i =? Z.of_nat j) (seq 0 (Z.to_nat d)))) (seq 0 (n_vnodes p)))
    (seq 0 (n_cnodes p)).

Lemma binaryb_ok : forall H, binaryb H = true -> binary H.
Proof.
  intros H E. unfold binaryb in E. rewrite forallb_forall in E. split.
  - apply Forall_forall. intros r Hr. apply E in Hr. apply andb_true_iff in Hr. apply Nat.eqb_eq. apply Hr.
  - apply Forall_forall. intros r Hr. apply E in Hr. apply andb_true_iff in Hr as [_ Hr]. rewrite forallb_forall in Hr.
    apply Forall_forall. intros x Hx. apply Hr in Hx. apply orb_true_iff in Hx as [Hx|Hx]; apply Z.eqb_eq in Hx; subst; unfold is_bit; auto.
Qed.

Lemma describesb_ok : forall p H, describesb p H = true -> describes p H.
Proof.
  intros p H E. unfold describesb in E. repeat rewrite andb_true_iff in E. destruct E as (((((E1 & E2) & E3) & E4) & E5) & E6).
  split; [apply binaryb_ok; exact E1|]. apply Nat.eqb_eq in E2, E3, E4, E5. repeat (split; [assumption|]).
  rewrite forallb_forall in E6. intros c Hc. specialize (E6 c ltac:(apply in_seq; lia)). cbv zeta in *. repeat rewrite andb_true_iff in E6. destruct E6 as (((D1 & D2) & D3) & D4).
  split; [apply Z.leb_le in D1, D2; lia|]. rewrite forallb_forall in D3, D4. split.
  - intros i Hi. specialize (D3 i ltac:(apply in_seq; lia)). apply andb_true_iff in D3 as [A B]. apply Z.leb_le in A. apply Z.ltb_lt in B. lia.
  - intros j Hj. specialize (D4 j ltac:(apply in_seq; lia)). apply Bool.eqb_prop in D4. split.
    + intros Hh. rewrite Hh in D4. cbn [Z.eqb Pos.eqb] in D4. symmetry in D4. apply existsb_exists in D4 as (i & Hi & Ei). exists i. apply in_seq in Hi. apply Z.eqb_eq in Ei. split; [lia|exact Ei].
    + intros (i & Hi & Ei). apply Z.eqb_eq. rewrite D4. apply existsb_exists. exists i. split; [apply in_seq; lia|apply Z.eqb_eq; exact Ei].
Qed.

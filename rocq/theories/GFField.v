(* GF(2^m) as a mathcomp field, built on the integers of gfields.py, for every primitive polynomial. *)
From Verif Require Import Base UtilModel UtilProofs GFModel GFPoly GFNext GFCoset.
Set Warnings "-ambiguous-paths,-notation-overridden".
From mathcomp Require Import all_ssreflect fingroup ssralg finalg zmodp poly polydiv.
Import GRing.Theory.
Local Open Scope ring_scope.

(* Z as a choiceType (needed by mathcomp's algebraic structures) *)
Lemma Z_eqP : Equality.axiom Z.eqb.
Proof. move=> x y. exact: (iffP (Z.eqb_spec x y)). Qed.
Definition Z_eqMixin := EqMixin Z_eqP.
Canonical Z_eqType := EqType Z Z_eqMixin.
Definition Z_code (z : Z) : nat * bool := (Z.abs_nat z, Z.ltb z 0).
Definition Z_decode (c : nat * bool) : Z := if c.2 then (- Z.of_nat c.1)%Z else Z.of_nat c.1.
Lemma Z_codeK : cancel Z_code Z_decode.
Proof. move=> z. rewrite /Z_decode /Z_code /=. case: (Z.ltb_spec z 0) => H; lia. Qed.
Definition Z_choiceMixin := CanChoiceMixin Z_codeK.
Canonical Z_choiceType := ChoiceType Z Z_choiceMixin.

(* square-and-multiply with the modelled polymultiply *)
Fixpoint gpow (m : nat) (pp x : Z) (e : positive) : res Z :=
  match e with
  | xH => Ok x
  | xO e' => r <- gpow m pp x e' ;; polymultiply r r m pp
  | xI e' => r <- gpow m pp x e' ;; s <- polymultiply r r m pp ;; polymultiply s x m pp
  end.

Definition is_one (r : res Z) : bool := match r with Ok v => (v =? 1)%Z | Err _ => false end.

(* alpha = X mod pp *)
Definition alphaZ (m : nat) : Z := if (m =? 1)%nat then 1%Z else 2%Z.

(* pp is a primitive polynomial of degree m: X^N = 1 and X^d <> 1 for every proper divisor d of N,
   N = 2^m - 1 <= B^2 *)
Definition prim_ok (m : nat) (pp : Z) (B : nat) : bool :=
  let N := (2 ^ Z.of_nat m - 1)%Z in
  ((1 <=? m)%nat && (Z.log2 pp =? Z.of_nat m)%Z && (1 <=? pp)%Z && (N <? Z.of_nat B * Z.of_nat B)%Z
   && ((1 <? m)%nat || (pp =? 3)%Z)
   && is_one (gpow m pp (alphaZ m) (Z.to_pos N))
   && forallb (fun d => let d := Z.of_nat d in
        if (N mod d =? 0)%Z then
          (if (d <? N)%Z then negb (is_one (gpow m pp (alphaZ m) (Z.to_pos d))) else true) &&
          (if (1 <? d)%Z then negb (is_one (gpow m pp (alphaZ m) (Z.to_pos (N / d)))) else true)
        else true) (List.seq 1 B))%bool.

Lemma prim_table : List.forallb (fun m => match List.nth_error primpoly_array m with Some p => prim_ok m p 256 | None => false end)
                           (List.seq 1 16) = true.
Proof. vm_compute. reflexivity. Qed.

(* order of the multiplicative group *)
Definition Nn (m : nat) : nat := Nat.sub (Nat.pow 2 m) 1.

Section Field.
Variables (m : nat) (pp : Z) (B : nat).
Hypothesis Hok : prim_ok m pp B = true.

Local Notation N := (Nn m).

Lemma ok_m : (1 <= m)%coq_nat.
Proof. move: Hok. rewrite /prim_ok. by case: Nat.leb_spec. Qed.
Lemma ok_log : Z.log2 pp = Z.of_nat m.
Proof. move: Hok. rewrite /prim_ok. case: Nat.leb_spec => // H. by case: Z.eqb_spec. Qed.
Lemma ok_pp : (2 <= pp)%Z.
Proof.
  pose proof ok_m. pose proof ok_log as L. destruct (Z.lt_ge_cases pp 2) as [Hc|]; [|assumption].
  assert (Z.log2 pp <= Z.log2 1)%Z by (apply Z.log2_le_mono; lia). cbn in H0. lia.
Qed.

Lemma size_pp : size (P pp) = m.+1.
Proof. rewrite size_P ?ok_log ?Nat2Z.id //. pose proof ok_pp. lia. Qed.

Lemma pp_neq0 : P pp != 0.
Proof. by rewrite -size_poly_eq0 size_pp. Qed.

(* the elements 0 .. 2^m - 1 *)
(* (the let makes the carrier type depend on the field, so that its structures can be inferred) *)
Definition inrange (x : Z) : bool := let _ := Hok in ((0 <=? x) && (x <? 2 ^ Z.of_nat m))%Z.
Record gfe := GFE { gv : Z; gvP : inrange gv }.
Canonical gfe_subType := [subType for gv].
Definition gfe_eqMixin := [eqMixin of gfe by <:].
Canonical gfe_eqType := EqType gfe gfe_eqMixin.
Definition gfe_choiceMixin := [choiceMixin of gfe by <:].
Canonical gfe_choiceType := ChoiceType gfe gfe_choiceMixin.

Lemma inrangeP x : inrange x <-> (0 <= x < 2 ^ Z.of_nat m)%Z.
Proof.
  rewrite /inrange. split; first by move=> /andP [/Z.leb_le H1 /Z.ltb_lt H2].
  by move=> [/Z.leb_le H1 /Z.ltb_lt H2]; apply/andP.
Qed.

Lemma gv_range u : (0 <= gv u < 2 ^ Z.of_nat m)%Z.
Proof. apply/inrangeP. exact: gvP. Qed.

Definition rep (u : gfe) : {poly 'F_2} := P (gv u).

Lemma rep_inj : injective rep.
Proof. move=> u v E. apply/val_inj. case: (gv_range u) => Hu _. case: (gv_range v) => Hv _. exact: (P_inj _ _ Hu Hv E). Qed.

Lemma rep_size u : (size (rep u) < size (P pp))%N.
Proof. rewrite size_pp ltnS. apply: size_P_le. exact: gv_range. Qed.

Lemma rep_mod u : rep u %% P pp = rep u.
Proof. apply: modp_small. exact: rep_size. Qed.

Lemma mk_range (p : {poly 'F_2}) : inrange (Zof (p %% P pp)).
Proof.
  apply/inrangeP. split; first exact: Zof_nonneg. apply: size_P_lt_inv; first exact: Zof_nonneg.
  rewrite P_Zof -ltnS -size_pp ltn_modp. exact: pp_neq0.
Qed.

Definition mk (p : {poly 'F_2}) : gfe := GFE _ (mk_range p).

Lemma rep_mk p : rep (mk p) = p %% P pp.
Proof. by rewrite /rep /mk /= P_Zof. Qed.

Lemma mk_rep u : mk (rep u) = u.
Proof. apply: rep_inj. by rewrite rep_mk rep_mod. Qed.

Definition gadd u v := mk (rep u + rep v).
Definition gmul u v := mk (rep u * rep v).
Definition gzero := mk 0.
Definition gone := mk 1.

Lemma rep_add u v : rep (gadd u v) = rep u + rep v.
Proof. by rewrite rep_mk modpD !rep_mod. Qed.
Lemma rep_zero : rep gzero = 0.
Proof. by rewrite rep_mk mod0p. Qed.
Lemma rep_mul u v : rep (gmul u v) = (rep u * rep v) %% P pp.
Proof. by rewrite rep_mk. Qed.
Lemma rep_one : rep gone = 1.
Proof. rewrite rep_mk modp_small // size_poly1 size_pp. pose proof ok_m. by apply/ltP; lia. Qed.

Lemma gaddA : associative gadd.
Proof. move=> u v w. apply: rep_inj. by rewrite !rep_add addrA. Qed.
Lemma gaddC : commutative gadd.
Proof. move=> u v. apply: rep_inj. by rewrite !rep_add addrC. Qed.
Lemma gadd0 : left_id gzero gadd.
Proof. move=> u. apply: rep_inj. by rewrite rep_add rep_zero add0r. Qed.
Lemma gaddN : left_inverse gzero id gadd.
Proof. move=> u. apply: rep_inj. by rewrite rep_add rep_zero -{1}(char2_opp (rep u)) addNr. Qed.

Definition gfe_zmodMixin := ZmodMixin gaddA gaddC gadd0 gaddN.
Canonical gfe_zmodType := ZmodType gfe gfe_zmodMixin.

Lemma gmulA : associative gmul.
Proof. move=> u v w. apply: rep_inj. rewrite !rep_mul modp_mul (mulrC (_ %% _)) modp_mul. by rewrite (mulrC (rep w)) mulrA. Qed.
Lemma gmulC : commutative gmul.
Proof. move=> u v. apply: rep_inj. by rewrite !rep_mul mulrC. Qed.
Lemma gmul1 : left_id gone gmul.
Proof. move=> u. apply: rep_inj. by rewrite rep_mul rep_one mul1r rep_mod. Qed.
Lemma gmulD : left_distributive gmul gadd.
Proof. move=> u v w. apply: rep_inj. by rewrite rep_add !rep_mul rep_add mulrDl modpD. Qed.
Lemma gone_neq0 : gone != gzero.
Proof. apply/eqP => /(congr1 rep). rewrite rep_one rep_zero. apply/eqP. exact: oner_neq0. Qed.

Definition gfe_ringMixin := ComRingMixin gmulA gmulC gmul1 gmulD gone_neq0.
Canonical gfe_ringType := RingType gfe gfe_ringMixin.
Canonical gfe_comRingType := ComRingType gfe gmulC.

Lemma repD (u v : gfe) : rep (u + v) = rep u + rep v. Proof. exact: rep_add. Qed.
Lemma repM (u v : gfe) : rep (u * v) = (rep u * rep v) %% P pp. Proof. exact: rep_mul. Qed.
Lemma rep1 : rep 1 = 1. Proof. exact: rep_one. Qed.
Lemma rep0 : rep 0 = 0. Proof. exact: rep_zero. Qed.

(* values *)
Lemma gv_add (u v : gfe) : gv (u + v) = Z.lxor (gv u) (gv v).
Proof.
  pose proof (gv_range u). pose proof (gv_range v). pose proof (gv_range (u + v)).
  apply: P_inj; [lia|apply: lxor_nonneg; lia|]. rewrite P_xor; [exact: repD|lia|lia].
Qed.
Lemma gv0 : gv 0 = 0%Z.
Proof. pose proof (gv_range 0). apply: P_inj; [lia|lia|]. rewrite P0. exact: rep0. Qed.
Lemma gv1 : gv 1 = 1%Z.
Proof. pose proof (gv_range 1). apply: P_inj; [lia|lia|]. rewrite P1. exact: rep1. Qed.
Lemma gv_mul (u v : gfe) : polymultiply (gv u) (gv v) m pp = Ok (gv (u * v)).
Proof.
  case: (polymultiply_spec (gv u) (gv v) m pp ok_m ok_pp (gv_range u) (gv_range v)) => r [-> [Hr HP]].
  congr Ok. pose proof (gv_range (u * v)). apply: P_inj; [lia|lia|]. rewrite HP. by rewrite -[P (gv (u * v))]/(rep (u * v)) repM.
Qed.
Lemma gv_inj : injective gv. Proof. exact: val_inj. Qed.

Lemma gpow_spec (u : gfe) e : gpow m pp (gv u) e = Ok (gv (u ^+ Pos.to_nat e)).
Proof.
  elim: e => [e IH|e IH|]; cbn [gpow].
  - rewrite IH. cbn [bind]. rewrite gv_mul. cbn [bind]. rewrite gv_mul. congr (Ok (gv _)).
    rewrite -exprD -exprSr. congr (_ ^+ _). rewrite Pos2Nat.inj_xI. rewrite -plusE. lia.
  - rewrite IH. cbn [bind]. rewrite gv_mul. congr (Ok (gv _)). rewrite -exprD. congr (_ ^+ _). rewrite Pos2Nat.inj_xO -plusE. lia.
  - by rewrite expr1.
Qed.

Definition alpha : gfe := mk 'X.

Lemma gv_alpha : gv alpha = alphaZ m.
Proof.
  have Ha : rep alpha = 'X %% P pp by rewrite rep_mk.
  rewrite /alphaZ. case: Nat.eqb_spec => E.
  - have E3 : pp = 3%Z.
    { move: Hok. rewrite /prim_ok E /=. by case: (Z.eqb_spec pp 3); rewrite ?andbF //= !andbF. }
    pose proof (gv_range alpha). apply: P_inj; [lia|lia|]. rewrite -[P (gv alpha)]/(rep alpha) Ha P1 E3.
    have -> : P 3 = 'X + 1 by rewrite -[3%Z]/(Z.lxor 2 1) P_xor // P2 P1.
    have {1}-> : 'X = 1 * ('X + 1) + 1 :> {poly 'F_2}.
    { by rewrite mul1r -addrA -{2}(char2_opp 1) subrr addr0. }
    rewrite modpD modp_mull add0r modp_small // size_poly1 size_addl ?size_polyX // size_poly1 //.
  - pose proof (gv_range alpha). apply: P_inj; [lia|lia|]. rewrite -[P (gv alpha)]/(rep alpha) Ha P2 modp_small // size_polyX size_pp.
    pose proof ok_m. by apply/ltP; lia.
Qed.

Lemma N_Z : Z.of_nat N = (2 ^ Z.of_nat m - 1)%Z.
Proof.
  assert (Nat.pow 2 m <> O) by (apply Nat.pow_nonzero; lia). rewrite /Nn Nat2Z.inj_sub; [by rewrite Nat2Z.inj_pow|lia].
Qed.

Lemma N_pos : (1 <= N)%coq_nat.
Proof.
  pose proof N_Z. pose proof ok_m. assert (2 ^ 1 <= 2 ^ Z.of_nat m)%Z by (apply Z.pow_le_mono_r; lia). lia.
Qed.

Lemma is_one_pow d : (1 <= d)%coq_nat -> is_one (gpow m pp (alphaZ m) (Z.to_pos (Z.of_nat d))) = (alpha ^+ d == 1).
Proof.
  move=> Hd. rewrite -gv_alpha gpow_spec /is_one.
  have -> : Pos.to_nat (Z.to_pos (Z.of_nat d)) = d by rewrite -Z2Nat.inj_pos Z2Pos.id; [rewrite Nat2Z.id|lia].
  apply/Z.eqb_spec/eqP => [E|->]; last exact: gv1. apply: gv_inj. by rewrite gv1.
Qed.

Lemma alpha_N : alpha ^+ N = 1.
Proof.
  apply/eqP. rewrite -is_one_pow; last exact: N_pos. rewrite N_Z. move: Hok. rewrite /prim_ok.
  by case: (is_one _) => //; rewrite !andbF.
Qed.

Lemma alpha_div d : (1 <= d)%coq_nat -> (d < N)%coq_nat -> Nat.divide d N -> alpha ^+ d != 1.
Proof.
  move=> Hd HdN [e He].
  have Hall : forall d' : nat, (Nat.le 1 d' /\ Nat.le d' B) ->
     (Z.of_nat N mod Z.of_nat d' =? 0)%Z = true ->
     ((d' < N)%coq_nat -> alpha ^+ d' != 1) /\ ((1 < d')%coq_nat -> is_one (gpow m pp (alphaZ m) (Z.to_pos (Z.of_nat N / Z.of_nat d'))) = false).
  { move=> d' Hd' Hm. move: Hok. rewrite /prim_ok => /andP [_ Hf].
    have Hin : List.In d' (List.seq 1 B) by apply/List.in_seq; lia.
    move/List.forallb_forall: Hf => /(_ _ Hin). cbv zeta. rewrite -N_Z Hm. move/andP => [H1 H2]. split.
    - move=> Hlt. have E : (Z.of_nat d' <? Z.of_nat N)%Z = true by lia. rewrite E in H1. rewrite -is_one_pow //; lia.
    - move=> Hlt. have E : (1 <? Z.of_nat d')%Z = true by lia. rewrite E in H2. by apply/negbTE. }
  have HB : Nat.lt N (Nat.mul B B).
  { move: Hok. rewrite /prim_ok -N_Z. case: (Z.ltb_spec (Z.of_nat N) (Z.of_nat B * Z.of_nat B)) => H; last by rewrite !andbF.
    move=> _. nia. }
  case: (Nat.le_gt_cases d B) => HdB.
  - apply (Hall d); [lia| |lia]. apply/Z.eqb_spec. rewrite He Nat2Z.inj_mul Z_mod_mult //.
  - have He1 : (1 < e)%coq_nat by nia. have HeB : (e <= B)%coq_nat by nia.
    case: (Hall e); [lia| |].
    + apply/Z.eqb_spec. rewrite He Nat2Z.inj_mul Z.mul_comm Z_mod_mult //.
    + move=> _ /(_ He1). rewrite {1}He Nat2Z.inj_mul Z.mul_comm Z.div_mul; last lia.
      rewrite is_one_pow //. by move->.
Qed.

(* ---- alpha generates the multiplicative group ---- *)
Lemma alpha_prim : N.-primitive_root alpha.
Proof.
  have HN : (0 < N)%N by apply/ltP; pose proof N_pos; lia.
  case: (prim_order_exists HN alpha_N) => d Hd Hdiv.
  have Hd0 : (0 < d)%N := prim_order_gt0 Hd.
  have [E|E] := eqVneq d N; first by rewrite -E.
  have : alpha ^+ d != 1.
  { apply: alpha_div; [by apply/ltP| |].
    - apply/ltP. rewrite ltn_neqAle E /=. exact: dvdn_leq.
    - case/dvdnP: Hdiv => e He. exists e. exact: He. }
  by rewrite (prim_expr_order Hd) eqxx.
Qed.

Lemma alpha_unit i : alpha ^+ i != 0.
Proof.
  apply/eqP => E. have : alpha ^+ (N * i) = 1 by rewrite exprM alpha_N expr1n.
  have HN : (0 < N)%N by apply/ltP; pose proof N_pos; lia.
  rewrite mulnC exprM E expr0n (gtn_eqF HN) /= => /eqP. by rewrite eq_sym (negbTE gone_neq0).
Qed.

Lemma gv_eq0 (u : gfe) : (gv u =? 0)%Z = (u == 0).
Proof. apply/Z.eqb_spec/eqP => [E|->]; last exact: gv0. apply: gv_inj. by rewrite gv0. Qed.

Lemma nonzero_alpha (u : gfe) : u != 0 -> exists2 i, (i < N)%N & u = alpha ^+ i.
Proof.
  move=> Hu.
  pose s1 := [seq gv (alpha ^+ i) | i <- iota 0 N]. pose s2 := [seq Z.of_nat k | k <- iota 1 N].
  have U1 : uniq s1.
  { rewrite map_inj_in_uniq ?iota_uniq // => i j. rewrite !mem_iota /= add0n => Hi Hj /gv_inj /eqP.
    rewrite (eq_prim_root_expr alpha_prim) !modn_small // => /eqP ->. by []. }
  have in2 : forall w : gfe, w != 0 -> gv w \in s2.
  { move=> w Hw. case: (gv_range w) => H1 H2. have H0 : gv w <> 0%Z by apply/Z.eqb_spec; rewrite gv_eq0 (negbTE Hw).
    apply/mapP. exists (Z.to_nat (gv w)); last by rewrite Z2Nat.id.
    rewrite mem_iota. pose proof N_Z. apply/andP; split; [apply/leP; lia|apply/ltP; rewrite -plusE; lia]. }
  have Hsub : {subset s1 <= s2} by move=> z /mapP [i _ ->]; apply: in2; exact: alpha_unit.
  have Hsz : (size s2 <= size s1)%N by rewrite !size_map !size_iota.
  have [_ Hmem] := uniq_min_size U1 Hsub Hsz.
  have : gv u \in s1 by rewrite Hmem; exact: in2.
  case/mapP => i. rewrite mem_iota add0n => Hi /gv_inj ->. by exists i.
Qed.

Lemma nonzero_expN (u : gfe) : u != 0 -> u ^+ N = 1.
Proof. case/nonzero_alpha => i _ ->. by rewrite -exprM mulnC exprM alpha_N expr1n. Qed.

Definition ginv (u : gfe) : gfe := if u == 0 then 0 else u ^+ N.-1.
Lemma gmulV : forall u : gfe, u != 0 -> ginv u * u = 1.
Proof.
  move=> u Hu. rewrite /ginv (negbTE Hu) -exprSr prednK; first exact: nonzero_expN. apply/ltP. pose proof N_pos. lia.
Qed.
Lemma ginv0 : ginv 0 = 0. Proof. by rewrite /ginv eqxx. Qed.

Definition gfe_unitRingMixin := FieldUnitMixin gmulV ginv0.
Canonical gfe_unitRingType := UnitRingType gfe gfe_unitRingMixin.
Canonical gfe_comUnitRingType := [comUnitRingType of gfe].
Lemma gfe_fieldMixin : GRing.Field.mixin_of gfe_unitRingType.
Proof. by []. Qed.
Definition gfe_idomainMixin := FieldIdomainMixin gfe_fieldMixin.
Canonical gfe_idomainType := IdomainType gfe gfe_idomainMixin.
Canonical gfe_fieldType := FieldType gfe gfe_fieldMixin.

Lemma gchar2 (u : gfe) : u + u = 0.
Proof. apply: rep_inj. rewrite repD rep0. by rewrite -{1}(char2_opp (rep u)) addNr. Qed.
Lemma gopp (u : gfe) : - u = u.
Proof. apply/eqP. by rewrite eq_sym -addr_eq0 gchar2. Qed.

(* mk is a ring morphism *)
Lemma mkD p q : mk (p + q) = mk p + mk q.
Proof. apply: rep_inj. by rewrite repD !rep_mk modpD. Qed.
Lemma mkM p q : mk (p * q) = mk p * mk q.
Proof. apply: rep_inj. by rewrite repM !rep_mk modp_mul (mulrC (p %% _)) modp_mul (mulrC q). Qed.
Lemma mk1 : mk 1 = 1. Proof. by []. Qed.
Lemma mk0 : mk 0 = 0. Proof. by []. Qed.
Lemma mk_is_rmorphism : rmorphism mk.
Proof.
  split; first by move=> p q; rewrite mkD -(char2_opp q) opprK !char2_opp -{2}(gopp (mk q)).
  by split; [exact: mkM|].
Qed.
Canonical mk_additive := Additive mk_is_rmorphism.
Canonical mk_rmorphism := RMorphism mk_is_rmorphism.

Lemma mk_eq0 p : (mk p == 0) = (P pp %| p).
Proof.
  rewrite /dvdp. apply/eqP/eqP => [E|E].
  - by rewrite -rep_mk E rep0.
  - apply: rep_inj. by rewrite rep_mk E rep0.
Qed.

(* evaluation of binary polynomials *)
Definition emb (c : 'F_2) : gfe := mk c%:P.
Lemma emb_is_rmorphism : rmorphism emb.
Proof.
  split; first by move=> a b; rewrite /emb polyCB rmorphB.
  split; first by move=> a b; rewrite /emb polyCM rmorphM. by rewrite /emb.
Qed.
Canonical emb_additive := Additive emb_is_rmorphism.
Canonical emb_rmorphism := RMorphism emb_is_rmorphism.

Lemma mk_comp (p q : {poly 'F_2}) : mk (p \Po q) = (map_poly emb p).[mk q].
Proof.
  rewrite comp_polyE horner_coef size_map_poly rmorph_sum. apply: eq_bigr => i _.
  by rewrite -mul_polyC rmorphM rmorphX coef_map.
Qed.

(* ---- integers as elements ---- *)
Definition ofZ (z : Z) : gfe := mk (P z).
Lemma gv_ofZ z : (0 <= z < 2 ^ Z.of_nat m)%Z -> gv (ofZ z) = z.
Proof.
  move=> Hz. rewrite /ofZ. have Hr : inrange z by apply/inrangeP.
  have -> : mk (P z) = GFE z Hr by apply: rep_inj; rewrite rep_mk -[P z]/(rep (GFE z Hr)) rep_mod.
  by [].
Qed.
Lemma ofZ_gv u : ofZ (gv u) = u.
Proof. exact: mk_rep. Qed.
Lemma ofZ_inj z z' : (0 <= z < 2 ^ Z.of_nat m)%Z -> (0 <= z' < 2 ^ Z.of_nat m)%Z -> ofZ z = ofZ z' -> z = z'.
Proof. move=> H H' E. by rewrite -(gv_ofZ z H) -(gv_ofZ z' H') E. Qed.

Lemma repX u n : rep (u ^+ n) = (rep u ^+ n) %% P pp.
Proof. by rewrite -{1}(mk_rep u) -rmorphX rep_mk. Qed.

(* ---- discrete logarithm ---- *)
Lemma gf_next_spec u : gf_next m pp (gv u) = gv (u * alpha).
Proof.
  have [E R] := gf_next_eq m pp (gv u) ok_m ok_log (Z.lt_le_trans 0 2 pp erefl ok_pp) (gv_range u).
  have H0 := gv_range (u * alpha).
  apply: P_inj; [by case: R|by case: H0|].
  have -> : P (gf_next m pp (gv u)) = P (gf_next m pp (gv u)) %% P pp.
  { rewrite modp_small // size_pp ltnS. exact: size_P_le. }
  rewrite E P_xor; first last.
  - case: (Z.testbit _ _); pose proof ok_pp; lia.
  - apply Z.shiftl_nonneg. by case: (gv_range u).
  - rewrite modpD. have -> : P (if Z.testbit (gv u) (Z.of_nat m - 1) then pp else 0%Z) %% P pp = 0.
    { case: (Z.testbit _ _); first by rewrite modpp. by rewrite P0 mod0p. }
    rewrite addr0. have -> : Z.shiftl (gv u) 1 = Z.shiftl (gv u) (Z.of_nat 1) by [].
    rewrite P_shift; last by case: (gv_range u).
    by rewrite expr1 -[P (gv (u * alpha))]/(rep (u * alpha)) repM rep_mk modp_mul.
Qed.

Lemma log_loop_spec fuel : forall k i, (k <= i)%N -> (i < k + fuel)%N -> (i < N)%N ->
  log_loop fuel m pp (gv (alpha ^+ i)) (gv (alpha ^+ k)) (Z.of_nat k) = Ok (Z.of_nat i).
Proof.
  elim: fuel => [|fuel IH] k i Hki Hik HiN; first by rewrite addn0 ltnNge Hki in Hik.
  cbn [log_loop]. case: Z.eqb_spec => E.
  - move/gv_inj/eqP: E. rewrite (eq_prim_root_expr alpha_prim) !modn_small // ?(leq_ltn_trans Hki) // => /eqP -> //.
  - have Hlt : (k < i)%N by rewrite ltn_neqAle Hki andbT; apply/eqP => Ek; apply: E; rewrite Ek.
    rewrite gf_next_spec -exprSr. have -> : (Z.of_nat k + 1)%Z = Z.of_nat k.+1 by lia.
    apply: IH => //. by rewrite addSnnS.
Qed.

Lemma log_loop_hang fuel z : (z < 1 \/ 2 ^ Z.of_nat m <= z)%Z -> forall k c, log_loop fuel m pp z (gv (alpha ^+ k)) c = Err OutOfFuel.
Proof.
  move=> Hz. elim: fuel => [//|fuel IH] k c. cbn [log_loop]. case: Z.eqb_spec => E.
  - exfalso. have [H1 H2] := gv_range (alpha ^+ k). have H0 : gv (alpha ^+ k) <> 0%Z by apply/Z.eqb_spec; rewrite gv_eq0 (negbTE (alpha_unit k)).
    lia.
  - by rewrite gf_next_spec -exprSr.
Qed.

Lemma pow_fuel : (N < Z.to_nat (2 ^ Z.of_nat m))%coq_nat.
Proof. pose proof N_Z. lia. Qed.

Lemma tuple_to_power_elt_spec i : (i < N)%N -> tuple_to_power_elt m pp (gv (alpha ^+ i)) = Ok (Z.of_nat i).
Proof.
  move=> Hi. rewrite /tuple_to_power_elt gv_eq0 (negbTE (alpha_unit i)). rewrite -gv1 -[1]/(alpha ^+ 0).
  apply: log_loop_spec => //. rewrite add0n. apply/ltP. move/ltP: Hi => Hi. pose proof pow_fuel. lia.
Qed.
Lemma tuple_to_power_elt_0 : tuple_to_power_elt m pp (gv 0) = Ok 0%Z.
Proof. by rewrite /tuple_to_power_elt gv_eq0 eqxx. Qed.

Definition dlog (u : gfe) : nat := if u == 0 then 0%N else index u [seq alpha ^+ i | i <- iota 0 N].
Lemma dlogP u : u != 0 -> (dlog u < N)%N /\ alpha ^+ dlog u = u.
Proof.
  move=> Hu. case: (nonzero_alpha u Hu) => i Hi E.
  have Hin : u \in [seq alpha ^+ i | i <- iota 0 N] by apply/mapP; exists i; [rewrite mem_iota|].
  rewrite /dlog (negbTE Hu). have Hlt : (index u [seq alpha ^+ i | i <- iota 0 N] < N)%N.
  { by rewrite -{2}(size_iota 0 N) -(size_map (fun i => alpha ^+ i)) index_mem. }
  split; first exact: Hlt.
  transitivity ([seq alpha ^+ i | i <- iota 0 N]`_(index u [seq alpha ^+ i | i <- iota 0 N])); last exact: nth_index.
  by rewrite (nth_map 0%N) ?size_iota // nth_iota // add0n.
Qed.
Lemma dlog_lt u : (dlog u < N)%N.
Proof. have [->|H] := eqVneq u 0; last by case: (dlogP u H). rewrite /dlog eqxx. apply/ltP. pose proof N_pos. lia. Qed.
Lemma dlog_spec u : tuple_to_power_elt m pp (gv u) = Ok (Z.of_nat (dlog u)).
Proof.
  have [->|H] := eqVneq u 0; first by rewrite tuple_to_power_elt_0 /dlog eqxx.
  case: (dlogP u H) => Hlt E. by rewrite -{1}E tuple_to_power_elt_spec.
Qed.
Lemma dlog_inj u v : u != 0 -> v != 0 -> dlog u = dlog v -> u = v.
Proof. move=> Hu Hv E. by rewrite -(proj2 (dlogP u Hu)) -(proj2 (dlogP v Hv)) E. Qed.

(* ---- order ---- *)
Lemma order_prim u : u != 0 -> ((N %/ gcdn (dlog u) N)%N).-primitive_root u.
Proof.
  move=> Hu. case: (dlogP u Hu) => _ E. rewrite -{2}E. exact: exp_prim_root alpha_prim _.
Qed.

(* ---- cyclotomic cosets ---- *)
Local Notation NZ := (2 ^ Z.of_nat m - 1)%Z.

Lemma conj_dlog u v : u != 0 -> v != 0 ->
  (conj NZ (Z.of_nat (dlog u)) (Z.of_nat (dlog v)) <-> exists k : nat, v = u ^+ (2 ^ k)).
Proof.
  move=> Hu Hv. case: (dlogP u Hu) => Lu Eu. case: (dlogP v Hv) => Lv Ev.
  have Hpow : forall k : nat, u ^+ (2 ^ k) = alpha ^+ (dlog u * 2 ^ k) by move=> k; rewrite exprM Eu.
  have Hmod : forall k : nat, Z.of_nat ((dlog u * 2 ^ k) %% N) = ((Z.of_nat (dlog u) * 2 ^ Z.of_nat k) mod NZ)%Z.
  { move=> k. rewrite -N_Z. have Hdiv := divn_eq (dlog u * 2 ^ k) N.
    have Hpos : (0 < N)%N by apply/ltP; pose proof N_pos; lia.
    have Hlt := ltn_pmod (dlog u * 2 ^ k) Hpos.
    have E2 : Z.of_nat (2 ^ k)%N = (2 ^ Z.of_nat k)%Z.
    { elim: k {Hdiv Hlt} => [//|k IH]. rewrite expnS Nat2Z.inj_succ Z.pow_succ_r; last lia. rewrite -IH -multE. lia. }
    apply: (Z.mod_unique_pos _ _ (Z.of_nat ((dlog u * 2 ^ k) %/ N))).
    - move/ltP: Hlt. lia.
    - rewrite -E2 -Nat2Z.inj_mul multE {1}Hdiv -plusE -multE. lia. }
  split.
  - case=> k E. exists k. rewrite Hpow -Ev. apply/eqP. rewrite (eq_prim_root_expr alpha_prim) (modn_small Lv).
    apply/eqP. apply: Nat2Z.inj. by rewrite E Hmod.
  - case=> k E. exists k. rewrite -Hmod. congr Z.of_nat. move/eqP: E. rewrite Hpow -{1}Ev (eq_prim_root_expr alpha_prim) (modn_small Lv).
    by move/eqP.
Qed.

Definition gf_of (es : list Z) : GF := {| gf_m := m; gf_prim := pp; gf_elements := Some es |}.

Lemma GF_arr_of es : List.nth_error primpoly_array m = Some pp -> es <> [::] -> GF_arr es m = Ok (gf_of es).
Proof. move=> H. rewrite /GF_arr H. by case: es. Qed.

Lemma tuple_to_power_of es : List.nth_error primpoly_array m = Some pp -> es <> [::] ->
  List.Forall (fun z => 0 <= z < 2 ^ Z.of_nat m)%Z es ->
  tuple_to_power (gf_of es) = Ok (gf_of (List.map (fun e => Z.of_nat (dlog (ofZ e))) es)).
Proof.
  move=> Htab Hne HR. rewrite /tuple_to_power /elements. cbn [gf_of gf_elements bind gf_m gf_prim].
  rewrite (mapM_Ok _ (fun e => Z.of_nat (dlog (ofZ e)))).
  - cbn [bind]. apply: GF_arr_of => //. by case: es Hne {HR}.
  - move=> e He. rewrite -{1}(gv_ofZ e) ?dlog_spec //. move/List.Forall_forall: HR => HR. exact: HR.
Qed.

Lemma frob_inj_0 (u : gfe) (k : nat) : (u ^+ (2 ^ k) == 0) = (u == 0).
Proof. by rewrite expf_eq0 expn_gt0. Qed.

Lemma dlog0_01 u : dlog u = 0%N -> u = 0 \/ u = 1.
Proof.
  move=> E. have [->|H] := eqVneq u 0; first by left. right. case: (dlogP u H) => _. by rewrite E expr0 => <-.
Qed.

Lemma gf_cosets_spec es : List.nth_error primpoly_array m = Some pp -> es <> [::] ->
  List.Forall (fun z => 0 <= z < 2 ^ Z.of_nat m)%Z es -> List.NoDup es ->
  exists css : list (list Z), gf_cosets (gf_of es) = Ok (List.map gf_of css) /\
    List.Forall (fun c => c <> [::]) css /\ Permutation.Permutation (List.concat css) es /\
    forall e e', List.In e es -> List.In e' es ->
      ((exists c, List.In c css /\ List.In e c /\ List.In e' c) <-> exists k : nat, ofZ e' = ofZ e ^+ (2 ^ k)).
Proof.
  move=> Htab Hne HR HD. have HRf := HR. move/List.Forall_forall: HRf => HRf.
  set lg := fun e => Z.of_nat (dlog (ofZ e)). set x := List.map lg es.
  have Lx : length x = length es by rewrite List.map_length.
  have nthx : forall j : nat, Nat.lt j (length es) -> List.nth j x 0%Z = lg (List.nth j es 0%Z).
  { move=> j Hj. rewrite /x (nth_map_lt lg es j 0%Z) //. }
  have inR : forall j : nat, Nat.lt j (length es) -> (0 <= List.nth j es 0 < 2 ^ Z.of_nat m)%Z.
  { move=> j Hj. apply: HRf. exact: List.nth_In. }
  have Hx : List.Forall (fun v => 0 <= v < NZ)%Z x.
  { apply/List.Forall_forall => v /List.in_map_iff [e [<- _]]. rewrite /lg -N_Z. have /ltP := dlog_lt (ofZ e). lia. }
  have Hinj : forall i j : nat, Nat.lt i (length es) -> Nat.lt j (length es) -> ofZ (List.nth i es 0%Z) = ofZ (List.nth j es 0%Z) -> i = j.
  { move=> i j Hi Hj E. apply ofZ_inj in E; try exact: inR. move/List.NoDup_nth: HD => HD. exact: (HD 0%Z). }
  have lg0 : forall e, lg e = 0%Z -> ofZ e = 0 \/ ofZ e = 1 by move=> e E; apply: dlog0_01; rewrite /lg in E; lia.
  have Hdup : forall i j : nat, Nat.lt i (length x) -> Nat.lt j (length x) -> List.nth i x 0%Z = List.nth j x 0%Z -> i = j \/ List.nth i x 0%Z = 0%Z.
  { rewrite Lx => i j Hi Hj. rewrite !nthx // => E.
    case: (Z.eq_dec (lg (List.nth i es 0%Z)) 0) => [|Hnz]; first by right. left. apply: Hinj => //.
    have Hz : forall e, lg e <> 0%Z -> ofZ e != 0 by move=> e He; apply/eqP => E0; apply: He; rewrite /lg E0 /dlog eqxx.
    apply: dlog_inj; [exact: Hz|apply: Hz; by rewrite -E|]. rewrite /lg in E. lia. }
  case: (cosets_loop_run m NZ ok_m erefl x Hx Hdup) => mark [count [Hrun [I1 I2 I3 I4 I5 I6]]].
  (* relation on positions = Frobenius conjugation *)
  have Hsame : forall i j : nat, Nat.lt i (length es) -> Nat.lt j (length es) ->
     (same NZ x i j <-> exists k : nat, ofZ (List.nth j es 0%Z) = ofZ (List.nth i es 0%Z) ^+ (2 ^ k)).
  { move=> i j Hi Hj. rewrite /same !nthx //. set u := ofZ (List.nth i es 0%Z). set v := ofZ (List.nth j es 0%Z). split.
    - case=> [Eij|[Hnz Hc]]; first by exists 0%N; rewrite expn0 expr1 /v -Eij.
      have Hu : u != 0 by apply/eqP => E0; apply: Hnz; rewrite /lg -/u E0 /dlog eqxx.
      have [Ev0|Hv] := eqVneq v 0; last by apply/conj_dlog.
      exfalso. apply: Hnz.
      have Hrange : (0 <= lg (List.nth i es 0%Z) < NZ)%Z by rewrite /lg -N_Z; have /ltP := dlog_lt (ofZ (List.nth i es 0%Z)); lia.
      have Hc' := conj_sym m NZ ok_m erefl _ _ Hrange Hc.
      have Ej : lg (List.nth j es 0%Z) = 0%Z by rewrite /lg -/v Ev0 /dlog eqxx.
      rewrite Ej in Hc'. exact: (conj_0 m NZ ok_m erefl _ Hc').
    - case=> k E. have [Eu|Hu] := eqVneq u 0.
      { left. apply: Hinj => //. rewrite -/u -/v E Eu expr0n. by rewrite (gtn_eqF (expn_gt0 2 k)). }
      have Hv : v != 0 by rewrite E frob_inj_0.
      case: (Z.eq_dec (lg (List.nth i es 0%Z)) 0) => [E0|Hnz].
      { left. apply: Hinj => //. rewrite -/u -/v E. case: (lg0 _ E0) => Eu; rewrite -/u in Eu; first by rewrite Eu eqxx in Hu.
        by rewrite Eu expr1n. }
      right. split; first exact: Hnz. apply/conj_dlog => //. by exists k. }
  set css := List.map (fun c : nat => select_marked es mark (Z.of_nat c)) (List.seq 1 (Z.to_nat (count - 1))).
  have Lm : length es = length mark by rewrite -Lx.
  exists css. split; [|split; [|split]].
  - rewrite /gf_cosets tuple_to_power_of //. cbn [bind elements gf_of gf_elements gf_m]. rewrite -/lg -/x Hrun. cbn [bind].
    rewrite (mapM_Ok _ (fun c : nat => gf_of (select_marked es mark (Z.of_nat c)))); first by rewrite /css List.map_map.
    move=> c /List.in_seq Hc. apply: GF_arr_of => //. case: (I5 (Z.of_nat c)); first by lia.
    move=> j [Hj Ej] E. have : List.In (List.nth j es 0%Z) (select_marked es mark (Z.of_nat c)).
    { apply/select_marked_In => //. exists j. by rewrite -Lx. }
    by rewrite E.
  - apply/List.Forall_forall => c /List.in_map_iff [k [<- /List.in_seq Hk]] E. case: (I5 (Z.of_nat k)); first by lia.
    move=> j [Hj Ej]. have : List.In (List.nth j es 0%Z) (select_marked es mark (Z.of_nat k)).
    { apply/select_marked_In => //. exists j. by rewrite -Lx. }
    by rewrite E.
  - apply: perm_select => //. apply/List.Forall_forall => v Hv. case: (List.In_nth mark v 0%Z Hv) => j [Hj <-].
    rewrite -Lm -Lx in Hj. have := I3 j Hj. have := I4 j Hj Hj. lia.
  - move=> e e' He He'. case: (List.In_nth es e 0%Z He) => i [Hi <-]. case: (List.In_nth es e' 0%Z He') => j [Hj <-].
    rewrite -Hsame //. rewrite -Lx in Hi Hj. rewrite -(I6 i j Hi Hj (I4 i Hi Hi)). split.
    + case=> c [/List.in_map_iff [k [<- Hk]] [H1 H2]]. move/select_marked_In: H1 => /(_ Lm) [i' [Hi' [Ei' Em']]].
      move/select_marked_In: H2 => /(_ Lm) [j' [Hj' [Ej' Emj']]].
      have Ei : i' = i by move/List.NoDup_nth: HD => HD; rewrite Lx in Hi; exact: (HD 0%Z).
      have Ej : j' = j by move/List.NoDup_nth: HD => HD; rewrite Lx in Hj; exact: (HD 0%Z).
      by rewrite -Ei -Ej Em' Emj'.
    + move=> E. exists (select_marked es mark (List.nth i mark 0%Z)). split; [|split].
      * apply/List.in_map_iff. exists (Z.to_nat (List.nth i mark 0%Z)). have := I3 i Hi. have := I4 i Hi Hi. move=> H1 H2.
        rewrite Z2Nat.id; last lia. split=> //. apply/List.in_seq. lia.
      * apply/select_marked_In => //. exists i. by rewrite -Lx.
      * apply/select_marked_In => //. exists j. by rewrite -Lx.
Qed.

(* ---- minimal polynomials ---- *)
Lemma nthE {T} (d : T) (l : list T) k : List.nth k l d = nth d l k.
Proof. elim: l k => [|a l IH] [|k] //=. Qed.
Lemma nth_gv (ts : seq gfe) k : List.nth k (List.map gv ts) 0%Z = gv ts`_k.
Proof. elim: ts k => [|a l IH] [|k]; cbn [List.map List.nth nth]; rewrite ?gv0 //. Qed.
Lemma lengthE {T} (l : list T) : length l = size l. Proof. by []. Qed.

Lemma fold_xor (tz t2z : nat -> Z) (a b : nat -> gfe) l : (forall k, tz k = gv (a k)) -> (forall k, t2z k = gv (b k)) ->
  forall acc, foldM (fun s k => v <- polymultiply (tz k) (t2z k) m pp ;; Ok (Z.lxor s v)) l (gv acc) =
              Ok (gv (acc + \sum_(k <- l) a k * b k)).
Proof.
  move=> Ha Hb. elim: l => [|k l IH] acc; first by rewrite big_nil addr0.
  cbn [foldM]. rewrite Ha Hb gv_mul. cbn [bind]. by rewrite -gv_add IH big_cons addrA.
Qed.

Lemma seqE a n : List.seq a n = iota a n. Proof. elim: n a => [//|n IH] a /=. by rewrite IH. Qed.

Lemma pick_sum (ts : seq gfe) j : \sum_(k < size ts) ts`_k * (k == j :> nat)%:R = ts`_j.
Proof.
  case: (ltnP j (size ts)) => Hj.
  - rewrite (bigD1 (Ordinal Hj)) //= eqxx mulr1 big1 ?addr0 // => k Hk. suff -> : (k == j :> nat) = false by rewrite mulr0.
    apply/negbTE. apply: contra Hk => /eqP E. by apply/eqP/val_inj.
  - rewrite nth_default // big1 // => k _. by rewrite (ltn_eqF (leq_trans (ltn_ord k) Hj)) mulr0.
Qed.

Lemma mul_root_spec (ts : seq gfe) root : (0 < size ts)%N -> exists ts' : seq gfe,
  mul_root m pp (List.map gv ts) (gv root) = Ok (List.map gv ts') /\ size ts' = (size ts).+1 /\ Poly ts' = Poly ts * ('X + root%:P).
Proof.
  move=> HL. set L := size ts in HL *.
  pose t2s : seq gfe := nseq (L - 1) 0 ++ [:: 1; root] ++ nseq (L - 1) 0.
  have Lz : length (List.map gv ts) = L by rewrite List.map_length.
  have nseqE : forall n, List.map gv (nseq n 0) = repeat 0%Z n by elim=> [//|n IH]; cbn [nseq ncons iter List.map repeat]; rewrite gv0 -IH.
  have E2 : List.app (repeat 0%Z (Nat.sub L 1)) (List.app [:: 1%Z; gv root] (repeat 0%Z (Nat.sub L 1))) = List.map gv t2s.
  { have appE : forall a b : seq gfe, List.map gv (a ++ b) = List.map gv a ++ List.map gv b by elim=> [//|a0 a IHa] b; cbn [cat List.map]; rewrite IHa.
    rewrite /t2s !appE !nseqE. cbn [List.map]. by rewrite gv1 minusE. }
  have Lt2 : size t2s = (L + L)%N.
  { rewrite /t2s !size_cat !size_nseq /=. case: (L) HL => // n _. by rewrite subn1 /= !addSn !addnS add0n. }
  have nth2 : forall i, t2s`_i = (i == (L - 1)%N)%:R + root * (i == L)%:R.
  { move=> i. rewrite /t2s nth_cat size_nseq. have HL1 : L = (L - 1).+1 by case: (L) HL => // n _; rewrite subn1.
    case: ltnP => Hi.
    - rewrite nth_nseq Hi (ltn_eqF Hi). have -> : (i == L) = false by rewrite HL1 (ltn_eqF (ltn_trans Hi (ltnSn _))).
      by rewrite mulr0 addr0.
    - have -> : (i == L) = (i == (L - 1).+1) by rewrite -HL1. case E : (i - (L - 1))%N => [|[|k]] /=.
      + have -> : i = (L - 1)%N by apply/eqP; rewrite eqn_leq Hi -subn_eq0 E.
        by rewrite eqxx (ltn_eqF (ltnSn _)) mulr0 addr0.
      + have -> : i = (L - 1).+1 by rewrite -(subnK Hi) E.
        by rewrite eqxx (gtn_eqF (ltnSn _)) mulr1 add0r.
      + have -> : i = (k.+2 + (L - 1))%N by rewrite -(subnK Hi) E.
        rewrite nth_nseq if_same. rewrite -(add1n (L - 1)%N) eqn_add2r -[X in _ == X](add0n (L - 1)%N) eqn_add2r /=. by rewrite mulr0 addr0. }
  pose T := fun n => \sum_(k < L) ts`_k * t2s`_(n + k).
  exists (List.rev (List.map T (List.seq 0 L.+1))).
  have Hsz : size (List.rev (List.map T (List.seq 0 L.+1))) = L.+1 by rewrite -lengthE List.rev_length map_seq_length.
  split; [|split; first exact: Hsz].
  - rewrite /mul_root Lz E2. rewrite (mapM_Ok _ (fun n => gv (T n))).
    + cbn [bind]. rewrite List.map_rev. congr (Ok (List.rev _)). rewrite List.map_length lengthE Lt2 List.map_map.
      congr List.map. congr List.seq. rewrite -plusE. lia.
    + move=> n _.
      have HF := fold_xor (fun k => List.nth k (List.map gv ts) 0%Z) (fun k => List.nth (Nat.add n k) (List.map gv t2s) 0%Z)
                   (fun k => ts`_k) (fun k => t2s`_(n + k)) (List.seq 0 L) (nth_gv ts) (fun k => nth_gv t2s (Nat.add n k)) 0.
      rewrite gv0 add0r seqE in HF. rewrite seqE HF /T. congr (Ok (gv _)). by rewrite -[in LHS](subn0 L) big_mkord.
  - apply/polyP => j. rewrite coef_Poly mulrDr coefD coefMX coefMC !coef_Poly. case: (ltnP L j) => Hj.
    { rewrite nth_default ?Hsz // (nth_default 0 (ltnW Hj)) mul0r addr0. case: j Hj => //= j Hj. by rewrite nth_default. }
    rewrite -nthE List.rev_nth; last by rewrite map_seq_length; apply/ltP.
    rewrite map_seq_length. have -> : (L.+1 - j.+1)%coq_nat = (L - j)%N by rewrite minusE subSS.
    rewrite nth_map_seq; last by apply/ltP; rewrite ltnS leq_subr.
    rewrite /T.
    rewrite (eq_bigr (fun k : 'I_L => ts`_k * (k.+1 == j)%:R + (ts`_k * (k == j :> nat)%:R) * root)).
    { rewrite big_split /= -mulr_suml pick_sum. congr (_ + _). case: j {Hj} => [|j] /=; first by rewrite big1 // => k _; rewrite mulr0.
      exact: (pick_sum ts j). }
    move=> k _. rewrite nth2 mulrDr. have -> : (L - j + k == L - 1)%N = (k.+1 == j).
    { move/leP: Hj => Hj. move/ltP: HL => HL'. rewrite -!minusE -plusE. apply/eqP/eqP; lia. }
    have -> : (L - j + k == L)%N = (k == j :> nat).
    { by rewrite -(eqn_add2r j) addnAC subnK // eqn_add2l. }
    by rewrite (mulrC root) mulrA.
Qed.

Lemma coset_poly_prod (u0 : gfe) (us : seq gfe) : exists ts : seq gfe,
  foldM (mul_root m pp) (List.map gv us) (List.map gv [:: u0; 1]) = Ok (List.map gv ts) /\
  size ts = (size us).+2 /\ Poly ts = \prod_(u <- u0 :: us) ('X + u%:P).
Proof.
  have gen : forall us ts0, (0 < size ts0)%N -> exists ts : seq gfe,
    foldM (mul_root m pp) (List.map gv us) (List.map gv ts0) = Ok (List.map gv ts) /\
    size ts = (size ts0 + size us)%N /\ Poly ts = Poly ts0 * \prod_(u <- us) ('X + u%:P).
  { clear us. elim=> [|u us IH] ts0 H0.
    - exists ts0. by rewrite big_nil mulr1 addn0.
    - case: (mul_root_spec ts0 u H0) => ts1 [E1 [S1 P1]]. case: (IH ts1); first by rewrite S1.
      move=> ts [E2 [S2 P2]]. exists ts. split; first by cbn [List.map foldM]; rewrite E1; cbn [bind].
      split; first by rewrite S2 S1 addSnnS. by rewrite P2 P1 big_cons mulrA. }
  case: (gen us [:: u0; 1] isT) => ts [E [S HP]]. exists ts. split; first exact: E. split; first exact: S.
  rewrite HP big_cons. congr (_ * _). by rewrite /= !cons_poly_def mul0r add0r mul1r.
Qed.

(* a product with coefficients 0 and 1 is read back as a binary polynomial *)
Lemma emb_fb b : emb (fb b) = b%:R.
Proof. case: b; [by rewrite fb1 rmorph1|by rewrite fb0 rmorph0]. Qed.
Lemma emb_inj : injective emb.
Proof. exact: fmorph_inj. Qed.

Lemma b2d_rev_poly (ts : seq gfe) : (forall i, ts`_i = 0 \/ ts`_i = 1) ->
  bits (List.rev (List.map gv ts)) /\ map_poly emb (P (bitarray2dec (List.rev (List.map gv ts)))) = Poly ts.
Proof.
  move=> H. have Hb : bits (List.rev (List.map gv ts)).
  { apply/List.Forall_rev/bits_of_nth => i _. rewrite nth_gv. case: (H i) => ->; [rewrite gv0; by left|rewrite gv1; by right]. }
  split; first exact: Hb. apply/polyP => i. rewrite coef_map coef_Poly coef_P_b2d //. rewrite List.rev_length List.map_length.
  case: ltnP => Hi; last by rewrite raddf0 nth_default.
  rewrite List.rev_nth; last first.
  { rewrite List.map_length. move/ltP: Hi => Hi. apply/ltP. rewrite -!minusE in Hi *. apply/ltP. lia. }
  rewrite List.map_length nth_gv. have -> : (length ts - (length ts - 1 - i).+1)%coq_nat = i.
  { move/ltP: Hi => Hi. rewrite -!minusE. lia. }
  rewrite -[LHS]/(emb _) emb_fb. by case: (H i) => ->; rewrite ?gv0 ?gv1.
Qed.

(* Frobenius *)
Lemma sqD (u v : gfe) : (u + v) ^+ 2 = u ^+ 2 + v ^+ 2.
Proof. by rewrite sqrrD mulr2n gchar2 addr0. Qed.
Definition sq (u : gfe) : gfe := u ^+ 2.
Lemma sq_is_rmorphism : rmorphism sq.
Proof.
  split; first by move=> u v; rewrite /sq -{1}(gopp v) opprK sqD -{2}(gopp (v ^+ 2)) opprK.
  split; first by move=> u v; rewrite /sq exprMn. by rewrite /sq expr1n.
Qed.
Canonical sq_additive := Additive sq_is_rmorphism.
Canonical sq_rmorphism := RMorphism sq_is_rmorphism.

Lemma sq_fix c : sq c = c -> c = 0 \/ c = 1.
Proof.
  move=> E. have : c * (c - 1) == 0 by rewrite mulrBr mulr1 -expr2 -/(sq c) E subrr.
  rewrite mulf_eq0 => /orP [/eqP ->|]; first by left. rewrite subr_eq0 => /eqP ->. by right.
Qed.

Lemma bin_horner_sq (q : {poly 'F_2}) u : (map_poly emb q).[sq u] = sq (map_poly emb q).[u].
Proof.
  rewrite -horner_map -map_poly_comp. congr (_.[_]). apply: eq_map_poly => c /=.
  have [->|->] : c = 0 \/ c = 1.
  { rewrite (F2_cases c). case: (c != 0); [right; exact: fb1|left; exact: fb0]. }
  - by rewrite !rmorph0.
  - by rewrite !rmorph1.
Qed.

Definition conjg (u v : gfe) : Prop := exists k : nat, v = u ^+ (2 ^ k).

Lemma bin_root_conj (q : {poly 'F_2}) u v : conjg u v -> (map_poly emb q).[u] = 0 -> (map_poly emb q).[v] = 0.
Proof.
  case=> k -> Hq. elim: k => [|k IH]; first by rewrite expn0 expr1.
  by rewrite expnSr exprM -/(sq (u ^+ (2 ^ k))) bin_horner_sq IH rmorph0.
Qed.

Lemma prod_fixed (us : seq gfe) : uniq us -> (forall u, u \in us -> sq u \in us) ->
  forall i, (\prod_(u <- us) ('X + u%:P))`_i = 0 \/ (\prod_(u <- us) ('X + u%:P))`_i = 1.
Proof.
  move=> U C i. apply: sq_fix.
  have E : map_poly sq (\prod_(u <- us) ('X + u%:P)) = \prod_(u <- us) ('X + u%:P); last by rewrite -[in RHS]E coef_map.
  have Hp : perm_eq [seq sq u | u <- us] us.
  { have Us : uniq [seq sq u | u <- us] by rewrite map_inj_uniq //; exact: fmorph_inj.
    apply: uniq_perm => //. have Hsub : {subset [seq sq u | u <- us] <= us} by move=> v /mapP [u Hu ->]; exact: C.
    have Hs : (size us <= size [seq sq u | u <- us])%N by rewrite size_map.
    exact: (uniq_min_size Us Hsub Hs).2. }
  transitivity (\prod_(v <- [seq sq u | u <- us]) ('X + v%:P)); last exact: perm_big.
  rewrite rmorph_prod big_map. apply: eq_bigr => u _. by rewrite rmorphD /= map_polyX map_polyC.
Qed.

Lemma XaddC (u : gfe) : 'X + u%:P = 'X - u%:P.
Proof. by rewrite -polyCN gopp. Qed.

Lemma map_ofZ_gv c : List.Forall (fun z => 0 <= z < 2 ^ Z.of_nat m)%Z c -> List.map gv (List.map ofZ c) = c.
Proof.
  move=> H. rewrite List.map_map -[RHS]List.map_id. apply: List.map_ext_in => e He. apply: gv_ofZ. move/List.Forall_forall: H. exact.
Qed.

Lemma mem_In (u : gfe) (s : seq gfe) : u \in s <-> List.In u s.
Proof.
  elim: s => [//|a s IH]. rewrite inE /=. split.
  - by case/orP => [/eqP ->|/IH]; [left|right].
  - by case=> [->|/IH ->]; rewrite ?eqxx ?orbT.
Qed.

Lemma ofZ_In e c : List.In e c -> ofZ e \in List.map ofZ c.
Proof. move=> H. apply/mem_In/List.in_map_iff. by exists e. Qed.

Lemma uniq_ofZ c : List.Forall (fun z => 0 <= z < 2 ^ Z.of_nat m)%Z c -> List.NoDup c -> uniq (List.map ofZ c).
Proof.
  elim: c => [//|e c IH] HR HD. inversion HR; subst. inversion HD; subst. cbn [List.map uniq].
  apply/andP; split; last exact: IH. apply/negP => /mem_In /List.in_map_iff [e' [E He']].
  have Ee : e' = e by apply: ofZ_inj => //; move/List.Forall_forall: H2; exact.
  by rewrite Ee in He'.
Qed.

Lemma coset_poly_spec c : c <> [::] -> List.NoDup c -> List.Forall (fun z => 0 <= z < 2 ^ Z.of_nat m)%Z c ->
  (forall e, List.In e c -> exists e', List.In e' c /\ ofZ e' = sq (ofZ e)) ->
  exists p, coset_poly m pp c = Ok p /\ (0 < p)%Z /\ map_poly emb (P p) = \prod_(e <- c) ('X + (ofZ e)%:P).
Proof.
  move=> Hne HD HR HC. case Ec : c Hne => [//|e0 rest] _.
  have HR' := HR. rewrite Ec in HR'. inversion HR' as [|x l He0 Hrest]; subst x l.
  case: (coset_poly_prod (ofZ e0) (List.map ofZ rest)) => ts [E [Hs HP]].
  have U := uniq_ofZ c HR HD. have HP' : Poly ts = \prod_(u <- List.map ofZ c) ('X + u%:P) by rewrite Ec.
  have Hbit : forall i, ts`_i = 0 \/ ts`_i = 1.
  { move=> i. rewrite -(coef_Poly ts) HP'. apply: prod_fixed => // u /mem_In /List.in_map_iff [e [<- He]].
    case: (HC e He) => e' [He' <-]. exact: ofZ_In. }
  case: (b2d_rev_poly ts Hbit) => Hb Hm.
  exists (bitarray2dec (List.rev (List.map gv ts))).
  have Hmap : map_poly emb (P (bitarray2dec (List.rev (List.map gv ts)))) = \prod_(e <- e0 :: rest) ('X + (ofZ e)%:P).
  { rewrite Hm HP' Ec. by rewrite -[List.map ofZ (e0 :: rest)]/[seq ofZ e | e <- e0 :: rest] big_map. }
  split; [|split].
  - rewrite /coset_poly. rewrite map_ofZ_gv // in E. cbn [List.map] in E. rewrite gv_ofZ // gv1 in E. by rewrite E.
  - have H0 := b2d_nonneg _ Hb. have Hn : bitarray2dec (List.rev (List.map gv ts)) <> 0%Z; last lia.
    move=> E0. move: Hmap. rewrite E0 P0 rmorph0 => /esym/eqP. rewrite prodf_seq_eq0 => /hasP [e _ /=]. by rewrite XaddC polyXsubC_eq0.
  - exact: Hmap.
Qed.

Lemma map_poly_emb_eq0 q : (map_poly emb q == 0) = (q == 0).
Proof. exact: map_poly_eq0. Qed.
Lemma size_map_emb q : size (map_poly emb q) = size q.
Proof. exact: size_map_poly. Qed.

Definition full : list Z := List.map Z.of_nat (List.seq 0 (Z.to_nat (2 ^ Z.of_nat m))).
Lemma full_In z : List.In z full <-> (0 <= z < 2 ^ Z.of_nat m)%Z.
Proof.
  rewrite /full List.in_map_iff. split.
  - case=> k [<- /List.in_seq]. lia.
  - move=> H. exists (Z.to_nat z). rewrite List.in_seq. lia.
Qed.
Lemma full_range : List.Forall (fun z => 0 <= z < 2 ^ Z.of_nat m)%Z full.
Proof. apply/List.Forall_forall => z. by move/full_In. Qed.
Lemma full_nodup : List.NoDup full.
Proof. rewrite /full. apply: FinFun.Injective_map_NoDup; [exact: Nat2Z.inj|exact: List.seq_NoDup]. Qed.
Lemma full_ne : full <> [::].
Proof. move=> E. have : List.In 0%Z full by apply/full_In; split; [lia|apply Z.pow_pos_nonneg; lia]. by rewrite E. Qed.

(* p is the product over the conjugates of u *)
Definition conj_poly (u : gfe) (p : Z) : Prop := (0 < p)%Z /\ exists us : seq gfe, uniq us /\ (forall v, v \in us <-> conjg u v) /\
  map_poly emb (P p) = \prod_(v <- us) ('X + v%:P).

Lemma conj_poly_root u p : conj_poly u p -> (map_poly emb (P p)).[u] = 0.
Proof.
  case=> _ [us [_ [Hc ->]]]. apply/eqP. rewrite horner_prod prodf_seq_eq0. apply/hasP. exists u.
  - apply/Hc. by exists 0%N; rewrite expn0 expr1.
  - by rewrite /= XaddC hornerXsubC subrr.
Qed.
Lemma conj_poly_min u p q : conj_poly u p -> (0 < q)%Z -> (map_poly emb (P q)).[u] = 0 -> (size (P p) <= size (P q))%N.
Proof.
  case=> _ [us [U [Hc E]]] Hq Hr. rewrite -(size_map_emb (P p)) E (eq_bigr (fun v => 'X - v%:P)); last by move=> v _; exact: XaddC.
  rewrite size_prod_XsubC -(size_map_emb (P q)). apply: max_poly_roots => //.
  - rewrite map_poly_emb_eq0 P_eq0; last lia. apply/negP => /Z.eqb_spec. lia.
  - apply/allP => v /Hc Hv. apply/rootP. exact: bin_root_conj Hr.
Qed.

Lemma concat_unique (css : list (list Z)) : List.NoDup (List.concat css) -> forall c c' e, List.In c css -> List.In c' css ->
  List.In e c -> List.In e c' -> c = c'.
Proof.
  elim: css => [//|d css IH] /=. move=> HD c c' e.
  have Happ : List.NoDup d /\ List.NoDup (List.concat css) /\ (forall y, List.In y d -> ~ List.In y (List.concat css)).
  { clear IH c c' e. elim: d HD => [|y d IHd] /=; first by move=> H; split; [constructor|].
    move=> H. inversion H; subst. case: (IHd H3) => A1 [A2 A3]. split; [constructor=> //|split=> //].
    - move=> Hy. apply: H2. apply/List.in_or_app. by left.
    - move=> z [<-|Hz]; last exact: A3. move=> Hz. apply: H2. apply/List.in_or_app. by right. }
  case: Happ => _ [A2 A3]. case=> [<-|Hc] [<-|Hc'] He He'.
  - by [].
  - case: (A3 e He). apply/List.in_concat. by exists c'.
  - case: (A3 e He'). apply/List.in_concat. by exists c.
  - exact: (IH A2 c c' e).
Qed.

Lemma nodup_concat_each (css : list (list Z)) c : List.NoDup (List.concat css) -> List.In c css -> List.NoDup c.
Proof.
  elim: css => [//|d css IH] /= HD [<-|Hc].
  - clear IH. elim: d HD => [|y d IHd] /=; [constructor|]. move=> H. inversion H; subst. constructor; last exact: IHd.
    move=> Hy. apply: H2. apply/List.in_or_app. by left.
  - apply: IH => //. elim: d HD => [//|y d IHd] H. apply: IHd. by inversion H.
Qed.

Lemma select_one (css : list (list Z)) (x : Z) (f : list Z -> res Z) c p : List.NoDup (List.concat css) -> List.In c css -> List.In x c -> f c = Ok p ->
  exists l, mapM (fun d => if List.existsb (Z.eqb x) d then q <- f d ;; Ok [:: q] else Ok [::]) css = Ok l /\ List.concat l = [:: p].
Proof.
  move=> HD Hc Hx Hf.
  have Hzero : forall css', (forall d, List.In d css' -> ~ List.In x d) ->
     exists l, mapM (fun d => if List.existsb (Z.eqb x) d then q <- f d ;; Ok [:: q] else Ok [::]) css' = Ok l /\ List.concat l = [::].
  { elim=> [|d css' IH] H; first by exists [::]. case: IH; first by move=> d' Hd'; apply: H; right. move=> l [El Hl].
    exists ([::] :: l). cbn [mapM]. have -> : List.existsb (Z.eqb x) d = false.
    { apply/negbTE/negP => /List.existsb_exists [y [Hy /Z.eqb_spec E]]. subst y. apply: (H d) => //. by left. }
    by rewrite El. }
  elim: css HD Hc => [//|d css IH] HD Hc. have HD2 : List.NoDup (List.concat css).
  { move: HD => /=. elim: (d) => [//|y d' IHd] H. apply: IHd. by inversion H. }
  case: (List.in_dec (List.list_eq_dec Z.eq_dec) c css) => [Hin|Hnin].
  - have Hxd : ~ List.In x d.
    { move=> Hxd. have HDD := HD. cbn [List.concat] in HDD. case: (List.in_split x d Hxd) => l1 [l2 El]. rewrite El in HDD.
      rewrite -List.app_assoc in HDD. apply List.NoDup_remove_2 in HDD. apply: HDD. apply/List.in_or_app. right.
      cbn [List.app]. apply/List.in_or_app. right. apply/List.in_concat. by exists c. }
    case: (IH HD2 Hin) => l [El Hl]. exists ([::] :: l). cbn [mapM]. have -> : List.existsb (Z.eqb x) d = false.
    { by apply/negbTE/negP => /List.existsb_exists [y [Hy /Z.eqb_spec E]]; subst y. }
    by rewrite El.
  - case: Hc => [Ed|//]. subst d. case: (Hzero css).
    { move=> d Hd Hxd. apply: Hnin. by rewrite (concat_unique (c :: css) HD c d x (or_introl erefl) (or_intror Hd) Hx Hxd). }
    move=> l [El Hl]. exists ([:: p] :: l). cbn [mapM].
    have -> : List.existsb (Z.eqb x) c = true by apply/List.existsb_exists; exists x; split=> //; apply/Z.eqb_spec.
    rewrite Hf. cbn [bind]. rewrite El. cbn [bind List.concat]. by rewrite Hl.
Qed.

Lemma gf_minpolys_spec es : List.nth_error primpoly_array m = Some pp ->
  List.Forall (fun z => 0 <= z < 2 ^ Z.of_nat m)%Z es ->
  exists ps, gf_minpolys (gf_of es) = Ok ps /\ List.Forall2 (fun e p => conj_poly (ofZ e) p) es ps.
Proof.
  move=> Htab HR.
  case: (gf_cosets_spec full Htab full_ne full_range full_nodup) => css [Ecs [Hnec [Hperm Hrel]]].
  have HDc : List.NoDup (List.concat css) := Permutation.Permutation_NoDup (Permutation.Permutation_sym Hperm) full_nodup.
  have Hin_full : forall c e, List.In c css -> List.In e c -> List.In e full.
  { move=> c e Hc He. apply: (Permutation.Permutation_in _ Hperm). apply/List.in_concat. by exists c. }
  have Hcl : forall c e k, List.In c css -> List.In e c -> exists e', List.In e' c /\ ofZ e' = ofZ e ^+ (2 ^ k).
  { move=> c e k Hc He. pose e' := gv (ofZ e ^+ (2 ^ k)).
    have He' : List.In e' full by apply/full_In; exact: gv_range.
    have Hef := Hin_full c e Hc He.
    have [c' [Hc' [H1 H2]]] : exists c, List.In c css /\ List.In e c /\ List.In e' c by apply/Hrel => //; exists k; exact: ofZ_gv.
    have Ecc : c' = c := concat_unique css HDc c' c e Hc' Hc H1 He. exists e'. rewrite -Ecc. split=> //. exact: ofZ_gv. }
  have Hpoly : forall c e, List.In c css -> List.In e c -> exists p, coset_poly m pp c = Ok p /\ conj_poly (ofZ e) p.
  { move=> c e Hc He. have HRc : List.Forall (fun z => 0 <= z < 2 ^ Z.of_nat m)%Z c.
    { apply/List.Forall_forall => z Hz. apply/full_In. exact: (Hin_full c). }
    have HDd := nodup_concat_each css c HDc Hc.
    case: (coset_poly_spec c _ HDd HRc).
    - move/List.Forall_forall: Hnec. exact.
    - move=> e1 He1. case: (Hcl c e1 1%N Hc He1) => e' [H1 H2]. exists e'. by rewrite H2 expn1.
    - move=> p [Hp [Hp0 HpP]]. exists p. split=> //. split=> //. exists (List.map ofZ c). split; [exact: uniq_ofZ|split].
      + move=> v. split.
        * move/mem_In/List.in_map_iff => [e1 [<- He1]]. apply/(Hrel e e1); [exact: (Hin_full c)|exact: (Hin_full c)|]. by exists c.
        * case=> k ->. case: (Hcl c e k Hc He) => e' [H1 <-]. exact: ofZ_In.
      + by rewrite HpP -[List.map ofZ c]/[seq ofZ e | e <- c] big_map. }
  rewrite /gf_minpolys. cbn [gf_of gf_m gf_prim]. rewrite -/full GF_arr_of //; last exact: full_ne. cbn [bind]. rewrite Ecs. cbn [bind elements gf_of gf_elements].
  have Hbody : forall x, List.In x es -> exists p, conj_poly (ofZ x) p /\
    (l <- mapM (fun c => ce <- elements c ;; (if List.existsb (Z.eqb x) ce then p <- coset_poly m pp ce ;; Ok [:: p] else Ok [::])) (List.map gf_of css) ;; Ok (List.concat l)) = Ok [:: p].
  { move=> x Hx. have Hxf : List.In x full by apply/full_In; move/List.Forall_forall: HR; exact.
    have : List.In x (List.concat css) by apply: (Permutation.Permutation_in _ (Permutation.Permutation_sym Hperm)).
    move/List.in_concat => [c [Hc Hxc]]. case: (Hpoly c x Hc Hxc) => p [Ep Hp]. exists p. split=> //.
    case: (select_one css x (coset_poly m pp) c p HDc Hc Hxc Ep) => l [El Hl].
    have Emap : forall cs, mapM (fun c => ce <- elements c ;; (if List.existsb (Z.eqb x) ce then p <- coset_poly m pp ce ;; Ok [:: p] else Ok [::])) (List.map gf_of cs) =
                     mapM (fun d => if List.existsb (Z.eqb x) d then q <- coset_poly m pp d ;; Ok [:: q] else Ok [::]) cs.
    { elim=> [//|d cs IH]. cbn [List.map mapM]. by rewrite IH. }
    rewrite Emap El. cbn [bind]. by rewrite Hl. }
  clear Htab. elim: es HR Hbody => [|e es IH] HR Hbody; first by exists [::].
  case: (Hbody e); first by left. move=> p [Hp Ep]. cbn [mapM]. rewrite Ep. cbn [bind].
  inversion HR; subst. case: IH => //; first by move=> x Hx; apply: Hbody; right.
  move=> ps. case Em : (mapM _ _) => [ls|err]; cbn [bind]; last by case.
  move=> [[<-] Hps]. exists (p :: List.concat ls).
  split; first by []. by constructor.
Qed.

(* ---- cyclic code generator polynomials ---- *)
Definition sel {T} (bs : list Z) (l : list T) : list T := List.map snd (List.filter (fun bl => fst bl =? 1)%Z (List.combine bs l)).
Lemma select_bits_sel bs l : select_bits bs l = sel bs l. Proof. by []. Qed.

Lemma sel_cons {T} b bs (a : T) l : sel (b :: bs) (a :: l) = if (b =? 1)%Z then a :: sel bs l else sel bs l.
Proof. rewrite /sel /=. by case: (b =? 1)%Z. Qed.
Lemma sel_nil {T} bs : sel bs (nil : list T) = [::]. Proof. by case: bs. Qed.

Lemma sel_map {T U} (f : T -> U) bs l : sel bs (List.map f l) = List.map f (sel bs l).
Proof.
  elim: l bs => [|a l IH] [|b bs] //. cbn [List.map]. rewrite !sel_cons IH. by case: (b =? 1)%Z.
Qed.
Lemma sel_Forall2 {T U} (R : T -> U -> Prop) bs l l' : List.Forall2 R l l' -> List.Forall2 R (sel bs l) (sel bs l').
Proof.
  move=> H. elim: H bs => [|a b l1 l2 Hab H IH] [|c bs]; try constructor.
  rewrite !sel_cons. case: (c =? 1)%Z; [by constructor|exact: IH].
Qed.
Lemma sel_In {T} bs (l : list T) a : List.In a (sel bs l) -> List.In a l.
Proof.
  elim: l bs => [|b l IH] [|c bs] //. rewrite sel_cons. case: (c =? 1)%Z => /=; last by move/IH; right.
  by case=> [->|/IH]; [left|right].
Qed.
Lemma NoDup_app_split {T} (a b : list T) : List.NoDup (a ++ b)%list -> List.NoDup a /\ List.NoDup b /\ (forall y, List.In y a -> ~ List.In y b).
Proof.
  elim: a => [|y a IH] /=; first by move=> H; split; [constructor|].
  move=> H. inversion H; subst. case: (IH H3) => A1 [A2 A3]. split; [constructor=> //|split=> //].
  - move=> Hy. apply: H2. apply/List.in_or_app. by left.
  - move=> z [<-|Hz]; last exact: A3. move=> Hz. apply: H2. apply/List.in_or_app. by right.
Qed.
Lemma NoDup_app_join {T} (a b : list T) : List.NoDup a -> List.NoDup b -> (forall y, List.In y a -> ~ List.In y b) -> List.NoDup (a ++ b)%list.
Proof.
  elim: a => [//|y a IH] Ha Hb Hd. inversion Ha; subst. cbn [List.app]. constructor.
  - move=> Hy. case: (List.in_app_or _ _ _ Hy) => Hy' //. apply: (Hd y) => //. by left.
  - apply: IH => // z Hz. apply: Hd. by right.
Qed.
Lemma sel_concat_nodup (css : list (list Z)) bs : List.NoDup (List.concat css) -> List.NoDup (List.concat (sel bs css)).
Proof.
  elim: css bs => [|c css IH] [|b bs] HD; rewrite ?sel_nil //; try by constructor.
  cbn [List.concat] in HD. case: (NoDup_app_split _ _ HD) => A1 [A2 A3]. rewrite sel_cons. case: (b =? 1)%Z; last exact: IH.
  cbn [List.concat]. apply: NoDup_app_join => //; first exact: IH. move=> y Hy /List.in_concat [d [Hd Hyd]]. apply: (A3 y Hy).
  apply/List.in_concat. exists d. split=> //. exact: sel_In Hd.
Qed.
Lemma concat_sel_In (css : list (list Z)) bs e : List.In e (List.concat (sel bs css)) -> List.In e (List.concat css).
Proof. move/List.in_concat => [d [Hd He]]. apply/List.in_concat. exists d. split=> //. exact: sel_In Hd. Qed.

Definition nzl : list Z := List.map Z.of_nat (List.seq 1 (Z.to_nat (2 ^ Z.of_nat m - 1))).
Lemma nzl_In z : List.In z nzl <-> (1 <= z < 2 ^ Z.of_nat m)%Z.
Proof.
  rewrite /nzl List.in_map_iff. split.
  - case=> k [<- /List.in_seq]. lia.
  - move=> H. exists (Z.to_nat z). rewrite List.in_seq. lia.
Qed.
Lemma nzl_range : List.Forall (fun z => 0 <= z < 2 ^ Z.of_nat m)%Z nzl.
Proof. apply/List.Forall_forall => z /nzl_In. lia. Qed.
Lemma nzl_nodup : List.NoDup nzl.
Proof. rewrite /nzl. apply: FinFun.Injective_map_NoDup; [exact: Nat2Z.inj|exact: List.seq_NoDup]. Qed.
Lemma pow2m_ge2 : (2 <= 2 ^ Z.of_nat m)%Z.
Proof. pose proof ok_m. assert (2 ^ 1 <= 2 ^ Z.of_nat m)%Z by (apply Z.pow_le_mono_r; lia). lia. Qed.
Lemma nzl_ne : nzl <> [::].
Proof. move=> E. have : List.In 1%Z nzl by apply/nzl_In; pose proof pow2m_ge2; lia. by rewrite E. Qed.
Lemma nzl_length : length nzl = N.
Proof. rewrite /nzl map_seq_length. pose proof N_Z. lia. Qed.
Lemma ofZ_nz z : List.In z nzl -> ofZ z != 0.
Proof.
  move/nzl_In => H. apply/eqP => E. have : gv (ofZ z) = 0%Z by rewrite E gv0. rewrite gv_ofZ; lia.
Qed.

Lemma prod_dvd_XN (es : list Z) : List.NoDup es -> (forall e, List.In e es -> List.In e nzl) ->
  (\prod_(e <- es) ('X + (ofZ e)%:P)) %| ('X^N - 1).
Proof.
  move=> HD Hin. have HR : List.Forall (fun z => 0 <= z < 2 ^ Z.of_nat m)%Z es.
  { apply/List.Forall_forall => e He. have := Hin e He. move/nzl_In. lia. }
  have U := uniq_ofZ es HR HD.
  have -> : \prod_(e <- es) ('X + (ofZ e)%:P) = \prod_(u <- List.map ofZ es) ('X - u%:P).
  { rewrite -[List.map ofZ es]/[seq ofZ e | e <- es] big_map. apply: eq_bigr => e _. exact: XaddC. }
  apply: uniq_roots_dvdp; last by rewrite uniq_rootsE.
  apply/allP => u /mem_In /List.in_map_iff [e [<- He]]. apply/rootP. rewrite !hornerE hornerXn.
  by rewrite nonzero_expN ?subrr //; apply: ofZ_nz; apply: Hin.
Qed.

Lemma size_prod_es (es : list Z) : size (\prod_(e <- es) ('X + (ofZ e)%:P)) = (length es).+1.
Proof. rewrite (eq_bigr (fun e => 'X - (ofZ e)%:P)); last by move=> e _; exact: XaddC. by rewrite size_prod_XsubC. Qed.

Lemma nodup_incl_len (es : list Z) : List.NoDup es -> (forall e, List.In e es -> List.In e nzl) -> (length es <= N)%coq_nat.
Proof. move=> HD Hin. rewrite -nzl_length. exact: List.NoDup_incl_length. Qed.

(* p is the product over the elements of the coset c *)
Definition coset_prod (c : list Z) (p : Z) : Prop := (0 < p)%Z /\ map_poly emb (P p) = \prod_(e <- c) ('X + (ofZ e)%:P).

Lemma log2_of_size p n : (0 < p)%Z -> size (P p) = n.+1 -> Z.log2 p = Z.of_nat n.
Proof. move=> Hp. rewrite size_P // => [[E]]. pose proof (Z.log2_nonneg p). lia. Qed.

Lemma coset_prod_lt c p : coset_prod c p -> (length c <= N)%coq_nat -> (0 <= p < 2 ^ Z.of_nat (Z.to_nat (2 ^ Z.of_nat m)))%Z.
Proof.
  case=> Hp E Hl. have Hs : size (P p) = (length c).+1 by rewrite -size_map_emb E size_prod_es.
  split; first lia. apply: size_P_lt_inv; first lia. rewrite Hs. apply/leP. pose proof pow_fuel. lia.
Qed.

Lemma gen_product_spec cs ps : List.Forall2 coset_prod cs ps ->
  forall c0 g0 isf, coset_prod c0 g0 -> List.NoDup (List.app c0 (List.concat cs)) -> (forall e, List.In e (List.app c0 (List.concat cs)) -> List.In e nzl) ->
  (exists g, gen_product (Z.to_nat (2 ^ Z.of_nat m)) g0 isf ps = Ok g /\ coset_prod (List.app c0 (List.concat cs)) g) \/
  (gen_product (Z.to_nat (2 ^ Z.of_nat m)) g0 isf ps = Err TypeError /\ (isf = true \/ (6 <= m)%coq_nat)).
Proof.
  elim=> [|c p cs' ps' Hcp HF IH] c0 g0 isf H0 HD Hin.
  - left. exists g0. by rewrite /= List.app_nil_r.
  - cbn [gen_product]. case: isf => /=; first by right; split=> //; left.
    set w := Z.to_nat (2 ^ Z.of_nat m).
    cbn [List.concat] in HD, Hin. rewrite List.app_assoc in HD.
    case: (NoDup_app_split _ _ HD) => HD1 [_ _].
    have Hin1 : forall e, List.In e (List.app c0 c) -> List.In e nzl.
    { move=> e He. apply: Hin. rewrite List.app_assoc. apply/List.in_or_app. by left. }
    have Hl0 : (length (List.app c0 c) <= N)%coq_nat := nodup_incl_len _ HD1 Hin1. rewrite List.app_length in Hl0.
    have Hg0 := coset_prod_lt c0 g0 H0 ltac:(lia). have Hp := coset_prod_lt c p Hcp ltac:(lia).
    have Hw : (1 <= w)%coq_nat by rewrite /w; pose proof pow2m_ge2; lia.
    rewrite /dec2bitarray !decimal2bitarray_ok //. cbn [bind].
    case: (conv_mod2_poly (bits_msb w g0) (bits_msb w p)) => [||||r [-> [Br [Lr HP]]]];
      try exact: bits_msb_nonempty; try exact: bits_msb_bits.
    cbn [bind]. rewrite !b2d_bits_msb !Z.mod_small // in HP.
    have Hnew : coset_prod (List.app c0 c) (bitarray2dec r).
    { case: H0 => Hg0p Eg0. case: Hcp => Hpp Ep. split.
      - have := b2d_nonneg r Br. have Hn : bitarray2dec r <> 0%Z; last lia.
        move=> E. move: HP. rewrite E P0 => /esym/eqP. rewrite mulf_eq0 !P_eq0; try lia. by case/orP => /Z.eqb_spec; lia.
      - rewrite HP rmorphM /= Eg0 Ep. by rewrite -[List.app c0 c]/(c0 ++ c) big_cat. }
    case: (IH (List.app c0 c) (bitarray2dec r) (b2d_is_float r) Hnew HD).
    { move=> e He. apply: Hin. by rewrite List.app_assoc. }
    + move=> [g [Eg Hg]]. left. exists g. split=> //. cbn [List.concat]. by rewrite List.app_assoc.
    + move=> [Ee Hc]. right. split=> //. right. case: Hc => // Hf. rewrite /b2d_is_float in Hf. move/Z.leb_spec0: Hf.
      rewrite Lr !bits_msb_length -!plusE -minusE => Hf.
      case: (Nat.le_gt_cases 6 m) => // H5. exfalso.
      assert (2 ^ Z.of_nat m <= 2 ^ 5)%Z by (apply Z.pow_le_mono_r; lia). unfold w in Hf. cbn in H. lia.
Qed.

Lemma sel_filter {T} (b : T -> bool) l : sel (List.map (fun c => if b c then 1 else 0)%Z l) l = List.filter b l.
Proof. elim: l => [//|a l IH]. cbn [List.map]. rewrite sel_cons IH /=. by case: (b a). Qed.

Lemma mapM_inv {T U} (f : T -> res U) l ls : mapM f l = Ok ls -> List.Forall2 (fun a b => f a = Ok b) l ls.
Proof.
  elim: l ls => [|a l IH] ls /=; first by case=> <-; constructor.
  case E : (f a) => [b|//] /=. case Em : (mapM f l) => [bs|//] /= [<-]. constructor=> //. exact: IH.
Qed.
Lemma mapM_total {T U} (f : T -> res U) l : (forall a, List.In a l -> exists b, f a = Ok b) -> exists ls, mapM f l = Ok ls.
Proof.
  elim: l => [|a l IH] H; first by exists [::]. case: (H a); first by left. move=> b E. case: IH; first by move=> a' Ha; apply: H; right.
  move=> ls El. exists (b :: ls). cbn [mapM]. by rewrite E El.
Qed.
Lemma Forall2_In_r {T U} (R : T -> U -> Prop) l l' b : List.Forall2 R l l' -> List.In b l' -> exists2 a, List.In a l & R a b.
Proof.
  elim=> [//|a0 b0 l0 l0' H0 HF IH] [<-|/IH [a Ha HR]]; first by exists a0; [left|]. by exists a; [right|].
Qed.
Lemma Forall2_In_l {T U} (R : T -> U -> Prop) l l' a : List.Forall2 R l l' -> List.In a l -> exists2 b, List.In b l' & R a b.
Proof.
  elim=> [//|a0 b0 l0 l0' H0 HF IH] [<-|/IH [b Hb HR]]; first by exists b0; [left|]. by exists b; [right|].
Qed.

Lemma find_m_seq n j0 : forall cnt a last, (a <= j0)%coq_nat -> (j0 < a + cnt)%coq_nat ->
  (forall j : nat, (a <= j)%coq_nat -> (j < j0)%coq_nat -> ((2 ^ Z.of_nat j - 1) mod n <> 0)%Z) -> ((2 ^ Z.of_nat j0 - 1) mod n = 0)%Z ->
  find_m n (List.seq a cnt) last = j0.
Proof.
  elim=> [|cnt IH] a last H1 H2 Hn H0; first by rewrite -plusE in H2; lia.
  cbn [List.seq find_m]. case: (Nat.eq_dec a j0) => [->|Hne].
  - by rewrite H0.
  - have -> : ((2 ^ Z.of_nat a - 1) mod n =? 0)%Z = false by apply/Z.eqb_neq; apply: Hn; lia.
    apply: IH => //; try (rewrite -plusE in H2 *; lia). move=> j Hj Hj2. apply: Hn; lia.
Qed.
Lemma find_m_N : (m <= 17)%coq_nat -> find_m (Z.of_nat N) (List.seq 1 17) 1 = m.
Proof.
  move=> Hm. pose proof ok_m. apply: find_m_seq; [lia|rewrite -plusE; lia| |by rewrite -N_Z Z_mod_same_full].
  move=> j H1 H2. rewrite N_Z.
  assert (2 ^ Z.of_nat j < 2 ^ Z.of_nat m)%Z by (apply Z.pow_lt_mono_r; lia).
  assert (2 ^ 1 <= 2 ^ Z.of_nat j)%Z by (apply Z.pow_le_mono_r; lia). rewrite Z.mod_small; lia.
Qed.

Lemma N_odd : Nat.eqb (Nat.modulo N 2) 0 = false.
Proof.
  apply/Nat.eqb_neq => E. have HE : (Z.of_nat N mod 2 = 0)%Z by rewrite -(Nat2Z.inj_mod N 2) E.
  move: HE. rewrite N_Z. have := ok_m => Hm. have -> : (2 ^ Z.of_nat m = 2 * 2 ^ (Z.of_nat m - 1))%Z.
  { rewrite -Z.pow_succ_r; last lia. f_equal. lia. }
  move=> HE. Z.div_mod_to_equations. lia.
Qed.

Definition leader (c : list Z) : Z := List.nth 0 c 0%Z.

(* everything algcode.py computes before the final selection *)
Lemma cyclic_setup : List.nth_error primpoly_array m = Some pp -> exists css ps : list _,
  gf_cosets (gf_of nzl) = Ok (List.map gf_of css) /\ List.Forall (fun c => c <> [::]) css /\ Permutation.Permutation (List.concat css) nzl /\
  (forall c e v, List.In c css -> List.In e c -> (v \in List.map ofZ c <-> conjg (ofZ e) v)) /\
  gf_minpolys (gf_of (List.map leader css)) = Ok ps /\ List.Forall2 coset_prod css ps.
Proof.
  move=> Htab. case: (gf_cosets_spec nzl Htab nzl_ne nzl_range nzl_nodup) => css [Ecs [Hnec [Hperm Hrel]]].
  have HDc : List.NoDup (List.concat css) := Permutation.Permutation_NoDup (Permutation.Permutation_sym Hperm) nzl_nodup.
  have Hin_full : forall c e, List.In c css -> List.In e c -> List.In e nzl.
  { move=> c e Hc He. apply: (Permutation.Permutation_in _ Hperm). apply/List.in_concat. by exists c. }
  have Hcl : forall c e v, List.In c css -> List.In e c -> (v \in List.map ofZ c <-> conjg (ofZ e) v).
  { move=> c e v Hc He. split.
    - move/mem_In/List.in_map_iff => [e1 [<- He1]]. apply/(Hrel e e1); [exact: (Hin_full c)|exact: (Hin_full c)|]. by exists c.
    - case=> k ->. pose e' := gv (ofZ e ^+ (2 ^ k)). have Hef := Hin_full c e Hc He.
      have He' : List.In e' nzl.
      { apply/nzl_In. have := gv_range (ofZ e ^+ (2 ^ k)). rewrite -/e'. have Hnz : e' <> 0%Z; last lia.
        apply/Z.eqb_spec. by rewrite gv_eq0 frob_inj_0 (negbTE (ofZ_nz e Hef)). }
      have [c' [Hc' [H1 H2]]] : exists c, List.In c css /\ List.In e c /\ List.In e' c by apply/Hrel => //; exists k; exact: ofZ_gv.
      have Ecc : c' = c := concat_unique css HDc c' c e Hc' Hc H1 He. rewrite -Ecc.
      rewrite -[ofZ e ^+ _]ofZ_gv. exact: ofZ_In. }
  have Hlead : forall c, List.In c css -> List.In (leader c) c.
  { move=> c Hc. have Hnc : c <> [::] by move/List.Forall_forall: Hnec; exact. by case: c Hnc {Hc} => // e c _; left. }
  have HRl : List.Forall (fun z => 0 <= z < 2 ^ Z.of_nat m)%Z (List.map leader css).
  { apply/List.Forall_forall => z /List.in_map_iff [c [<- Hc]]. have := Hin_full c _ Hc (Hlead c Hc). move/nzl_In. lia. }
  case: (gf_minpolys_spec _ Htab HRl) => ps [Eps Hps].
  exists css, ps. do 4!(split=> //). split=> //.
  have Haux : forall l l', (forall c, List.In c l -> List.In c css) -> List.Forall2 (fun e p => conj_poly (ofZ e) p) (List.map leader l) l' -> List.Forall2 coset_prod l l'.
  { elim=> [|c l IH] l' Hsub HF; inversion HF as [|x y xs ys HR HF']; subst; constructor.
    - have Hc : List.In c css by apply: Hsub; left. case: HR => Hp [us [U [Hus E]]]. split=> //. rewrite E.
      have HRc : List.Forall (fun z => 0 <= z < 2 ^ Z.of_nat m)%Z c.
      { apply/List.Forall_forall => z Hz. have := Hin_full c z Hc Hz. move/nzl_In. lia. }
      have Hpe : perm_eq us [seq ofZ e | e <- c].
      { apply: uniq_perm => //; first exact: (uniq_ofZ c HRc (nodup_concat_each css c HDc Hc)). move=> v.
        apply/idP/idP => Hv; [apply/(Hcl c (leader c))|apply/Hus/(Hcl c (leader c))] => //; try exact: Hlead. exact/Hus. }
      by rewrite (perm_big _ Hpe) big_map.
    - apply: IH => // d Hd. apply: Hsub. by right. }
  exact: Haux Hps.
Qed.

Lemma Forall2_len {T U} (R : T -> U -> Prop) l l' : List.Forall2 R l l' -> length l = length l'.
Proof. by elim=> [//|a b l1 l2 _ _ IH] /=; rewrite IH. Qed.

Lemma sum_lengths (cs : list (list Z)) : Zsum (List.map (fun es => Z.of_nat (length es)) cs) = Z.of_nat (length (List.concat cs)).
Proof. elim: cs => [//|c cs IH]. cbn [List.map List.concat]. rewrite Zsum_cons IH List.app_length. lia. Qed.

Lemma coset_prod_nil : coset_prod [::] 1.
Proof. split; first lia. by rewrite P1 rmorph1 big_nil. Qed.

Definition good_gen (k g : Z) : Prop := (0 < g)%Z /\ Z.log2 g = (Z.of_nat N - k)%Z /\ P g %| ('X^N - 1).

Lemma cyclic_spec k : List.nth_error primpoly_array m = Some pp -> (m <= 16)%coq_nat ->
  (forall l, cyclic_code_genpoly N k = Ok l ->
     (forall g, List.In g l -> good_gen k g) /\
     (forall g, (1 <= Z.of_nat N - k)%Z -> good_gen k g -> List.In g l)) /\
  ((m <= 5)%coq_nat -> exists l, cyclic_code_genpoly N k = Ok l) /\
  (forall e, cyclic_code_genpoly N k = Err e -> e = TypeError).
Proof.
  move=> Htab Hm16. case: (cyclic_setup Htab) => css [ps [Ecs [Hnec [Hperm [Hcl [Eps Hps]]]]]].
  have HDc : List.NoDup (List.concat css) := Permutation.Permutation_NoDup (Permutation.Permutation_sym Hperm) nzl_nodup.
  have Hinc : forall e, List.In e (List.concat css) <-> List.In e nzl.
  { move=> e. split; [exact: (Permutation.Permutation_in _ Hperm)|exact: (Permutation.Permutation_in _ (Permutation.Permutation_sym Hperm))]. }
  have Hlen : length css = length ps := Forall2_len _ _ _ Hps.
  pose body := fun i : nat => i_array <- dec2bitarray (Z.of_nat i) (length ps) ;;
          if (Zsum (select_bits i_array (List.map (fun es => Z.of_nat (length es)) css)) =? Z.of_nat N - k)%Z
          then g <- gen_product (Z.to_nat (2 ^ Z.of_nat m)) 1 false (select_bits i_array ps) ;; Ok [:: g]
          else Ok [::].
  have Hcyc : cyclic_code_genpoly N k = (ls <- mapM body (List.seq 1 (Z.to_nat (2 ^ Z.of_nat (length ps) - 1))) ;; Ok (List.concat ls)).
  { rewrite /cyclic_code_genpoly N_odd find_m_N; last lia. rewrite -/nzl GF_arr_of //; last exact: nzl_ne. cbn [bind]. rewrite Ecs. cbn [bind].
    have -> : mapM elements (List.map gf_of css) = Ok css.
    { clear. elim: css => [//|c css IH]. cbn [List.map mapM]. rewrite IH. by []. }
    cbn [bind]. rewrite -/(leader) GF_arr_of //.
    - cbn [bind]. by rewrite Eps.
    - case: css Hperm {Ecs Hnec Hcl Eps Hps HDc Hinc Hlen body} => [|c css] Hperm //. move/Permutation.Permutation_nil: Hperm => E. by case: nzl_ne. }
  (* one index *)
  have Hone : forall i, List.In i (List.seq 1 (Z.to_nat (2 ^ Z.of_nat (length ps) - 1))) -> exists bs, bits bs /\ length bs = length css /\
     bitarray2dec bs = Z.of_nat i /\ List.NoDup (List.concat (sel bs css)) /\
     ((Z.of_nat (length (List.concat (sel bs css))) <> (Z.of_nat N - k)%Z /\ body i = Ok [::]) \/
      (Z.of_nat (length (List.concat (sel bs css))) = (Z.of_nat N - k)%Z /\
        ((exists g, body i = Ok [:: g] /\ coset_prod (List.concat (sel bs css)) g) \/ (body i = Err TypeError /\ (6 <= m)%coq_nat)))).
  { move=> i /List.in_seq Hi. exists (bits_msb (length ps) (Z.of_nat i)). have Hri : (0 <= Z.of_nat i < 2 ^ Z.of_nat (length ps))%Z by lia.
    split; first exact: bits_msb_bits. split; first by rewrite bits_msb_length. split; first by rewrite b2d_bits_msb Z.mod_small.
    have HDs := sel_concat_nodup css (bits_msb (length ps) (Z.of_nat i)) HDc. split; first exact: HDs.
    rewrite /body /dec2bitarray decimal2bitarray_ok //. cbn [bind]. rewrite !select_bits_sel sel_map sum_lengths.
    case: Z.eqb_spec => E; last by left. right. split=> //.
    have HF := sel_Forall2 _ (bits_msb (length ps) (Z.of_nat i)) _ _ Hps.
    case: (gen_product_spec _ _ HF [::] 1%Z false coset_prod_nil HDs).
    { move=> e He. apply/Hinc. exact: concat_sel_In He. }
    - move=> [g [Eg Hg]]. left. exists g. by rewrite Eg.
    - move=> [Ee [//|H6]]. right. by rewrite Ee. }
  split; [|split].
  - move=> l. rewrite Hcyc. case Em : (mapM _ _) => [ls|//]. cbn [bind]. case=> <-. have HF := mapM_inv _ _ _ Em. split.
    + move=> g /List.in_concat [gs [Hgs Hg]]. case: (Forall2_In_r _ _ _ _ HF Hgs) => i Hi Ei.
      case: (Hone i Hi) => bs [_ [_ [_ [HDs]]]]. rewrite Ei. case=> [[_ [E]]|[Hn [[g' [[E] [Hg0 HgP]]]|[//]]]]; rewrite E in Hg; first by [].
      case: Hg => [Eg|//]. rewrite Eg in Hg0 HgP. split=> //. split.
      * rewrite -Hn. apply: log2_of_size => //. by rewrite -size_map_emb HgP size_prod_es.
      * have Hd : map_poly emb (P g) %| map_poly emb ('X^N - 1).
        { rewrite HgP rmorphB rmorphX rmorph1 /= map_polyX. apply: prod_dvd_XN => // e He. apply/Hinc. exact: concat_sel_In He. }
        by rewrite dvdp_map in Hd.
    + move=> g Hnk [Hg0 [Hlog Hdvd]].
      pose isroot := fun c => (map_poly emb (P g)).[ofZ (leader c)] == 0.
      pose bs := List.map (fun c => if isroot c then 1 else 0)%Z css.
      have Hbb : bits bs by apply/List.Forall_forall => b /List.in_map_iff [c [<- _]]; case: (isroot c); [right|left].
      have Lbs : length bs = length ps by rewrite List.map_length.
      have Hselc : sel bs css = List.filter isroot css := sel_filter isroot css.
      (* the roots of g *)
      have Hd : map_poly emb (P g) %| \prod_(e <- nzl) ('X - (ofZ e)%:P).
      { have : map_poly emb (P g) %| map_poly emb ('X^N - 1) by rewrite dvdp_map.
        rewrite rmorphB rmorphX rmorph1 /= map_polyX => Hd1. apply: (dvdp_trans Hd1).
        have Hd2 := prod_dvd_XN nzl nzl_nodup (fun e He => He).
        have Hn0 : (0 < N)%N by apply/ltP; pose proof N_pos; lia.
        have Esz : size (\prod_(e <- nzl) ('X + (ofZ e)%:P)) = size ('X^N - 1 : {poly gfe}).
        { rewrite size_prod_es nzl_length size_addl ?size_polyXn // size_opp size_poly1. by rewrite ltnS. }
        have <- : \prod_(e <- nzl) ('X + (ofZ e)%:P) = \prod_(e <- nzl) ('X - (ofZ e)%:P).
        { apply: eq_bigr => e _. exact: XaddC. }
        have : \prod_(e <- nzl) ('X + (ofZ e)%:P) %= 'X^N - 1 by rewrite -(dvdp_size_eqp Hd2) Esz.
        by case/andP. }
      case: (dvdp_prod_XsubC Hd) => mk0 Heq.
      set S := mask mk0 nzl in Heq.
      have HSsub : forall e, e \in S -> List.In e nzl.
      { move=> e He. have He2 : e \in (nzl : seq Z) by exact: mem_mask He.
        clear -He2. elim: nzl He2 => [//|a l IH]. rewrite inE => /orP [/eqP ->|/IH]; [by left|by right]. }
      have HSprod : map_poly emb (P g) = \prod_(e <- S) ('X - (ofZ e)%:P).
      { apply/eqP. rewrite -eqp_monic //; last by apply: monic_prod => e _; exact: monicXsubC.
        rewrite monicE lead_coef_map. suff -> : lead_coef (P g) = 1 by rewrite rmorph1.
        have Hnz : lead_coef (P g) != 0 by rewrite lead_coef_eq0 P_eq0; [apply/negP => /Z.eqb_spec; lia|lia].
        rewrite (F2_cases (lead_coef (P g))) Hnz. exact: fb1. }
      have inN : forall e, List.In e nzl -> e \in (nzl : seq Z).
      { clear. elim: nzl => [//|a l IH] e [<-|/IH]; rewrite inE ?eqxx // => ->. by rewrite orbT. }
      have US : uniq S.
      { apply: mask_uniq. have := nzl_nodup. clear -Hok. elim: nzl => [//|a l IH] HD. inversion HD; subst. cbn [uniq]. apply/andP; split; last exact: IH.
        apply/negP => Ha. apply: H1. clear -Ha. elim: l Ha => [//|b l IH]. rewrite inE => /orP [/eqP ->|/IH]; [by left|by right]. }
      have Hroot : forall e, List.In e nzl -> (e \in S <-> (map_poly emb (P g)).[ofZ e] = 0).
      { move=> e He. rewrite HSprod. split.
        - move=> HeS. apply/eqP. rewrite horner_prod prodf_seq_eq0. apply/hasP. exists e => //=. by rewrite hornerXsubC subrr.
        - move/eqP. rewrite horner_prod prodf_seq_eq0 => /hasP [e' He' /=]. rewrite hornerXsubC subr_eq0 => /eqP E.
          have <- : e' = e; last exact: He'. have := HSsub e' He'. move: He => /nzl_In He /nzl_In He'2. apply: ofZ_inj; [lia|lia|by rewrite E]. }
      have HDs := sel_concat_nodup css bs HDc.
      have Hsel : forall e, List.In e (List.concat (sel bs css)) <-> e \in S.
      { move=> e. rewrite Hselc. split.
        - move/List.in_concat => [c [/List.filter_In [Hc /eqP Hr] He]].
          have Hen : List.In e nzl by apply/Hinc/List.in_concat; exists c.
          apply/Hroot => //. have Hl : List.In (leader c) c by case: (c) He => // a c' _; left.
          apply: bin_root_conj Hr. apply/(Hcl c (leader c)) => //. exact: ofZ_In.
        - move=> HeS. have Hen := HSsub e HeS. move/Hinc/List.in_concat: (Hen) => [c [Hc He]]. apply/List.in_concat. exists c. split=> //.
          apply/List.filter_In. split=> //. apply/eqP. have Hr : (map_poly emb (P g)).[ofZ e] = 0 by apply/Hroot.
          apply: bin_root_conj Hr. apply/(Hcl c e) => //. have Hl : List.In (leader c) c by case: (c) He => // a c' _; left. exact: ofZ_In. }
      have HpermS : perm_eq (List.concat (sel bs css)) S.
      { apply: uniq_perm => //.
        - clear -HDs. elim: (List.concat (sel bs css)) HDs => [//|a l0 IH] HD. inversion HD; subst. cbn [uniq]. apply/andP; split; last exact: IH.
          apply/negP => Ha. apply: H1. clear -Ha. elim: l0 Ha => [//|b l0 IH]. rewrite inE => /orP [/eqP ->|/IH]; [by left|by right].
        - move=> e. apply/idP/idP.
          + move=> He. apply/Hsel. clear -He. elim: (List.concat (sel bs css)) He => [//|b l0 IH]. rewrite inE => /orP [/eqP ->|/IH]; [by left|by right].
          + move/Hsel => He. clear -He. elim: (List.concat (sel bs css)) He => [//|a l0 IH] [<-|/IH]; rewrite inE ?eqxx // => ->. by rewrite orbT. }
      have HszS : Z.of_nat (length (List.concat (sel bs css))) = (Z.of_nat N - k)%Z.
      { rewrite -Hlog. symmetry. apply: log2_of_size => //. rewrite -size_map_emb HSprod size_prod_XsubC. congr _.+1. symmetry. exact: perm_size HpermS. }
      pose i := Z.to_nat (bitarray2dec bs).
      have Hrange := bitarray2dec_range bs Hbb.
      have Hnz : bitarray2dec bs <> 0%Z.
      { move=> E0. have Eb : bs = bits_msb (length bs) 0 by rewrite -E0 bits_msb_b2d.
        have Hall : forall c, List.In c css -> isroot c = false.
        { move=> c Hc. case Er : (isroot c) => //. have : List.In 1%Z bs by apply/List.in_map_iff; exists c; rewrite Er.
          rewrite Eb => /(List.In_nth _ _ 0%Z) [j [Hj]]. rewrite bits_msb_length in Hj. rewrite bits_msb_nth // Z.bits_0. by []. }
        have Hf : List.filter isroot css = [::].
        { clear -Hall. elim: css Hall => [//|c css IH] H /=. rewrite H; last by left. apply: IH => d Hd. apply: H. by right. }
        rewrite Hselc Hf /= in HszS. lia. }
      have Hi : List.In i (List.seq 1 (Z.to_nat (2 ^ Z.of_nat (length ps) - 1))).
      { apply/List.in_seq. rewrite Lbs in Hrange. rewrite /i. lia. }
      case: (Hone i Hi) => bs' [Hb' [L' [E' [HDs' Hor]]]].
      have Ebs : bs' = bs.
      { rewrite -(bits_msb_b2d bs' Hb') -(bits_msb_b2d bs Hbb) E' Lbs L' Hlen /i Z2Nat.id //; lia. }
      rewrite Ebs in Hor. case: (Forall2_In_l _ _ _ _ HF Hi) => gs Hgs Egs. rewrite Egs in Hor.
      case: Hor => [[Hne _]|[_ [[g' [[E] [Hg'0 Hg'P]]]|[//]]]]; first by [].
      have Egg : g' = g.
      { apply: P_inj; [lia|lia|]. apply: (map_poly_inj [rmorphism of emb]). rewrite /= Hg'P HSprod.
        rewrite (eq_bigr (fun e => 'X - (ofZ e)%:P)); last by move=> e _; exact: XaddC. exact: perm_big. }
      apply/List.in_concat. exists gs. split=> //. rewrite E Egg. by left.
  - move=> H5. rewrite Hcyc. case: (mapM_total body (List.seq 1 (Z.to_nat (2 ^ Z.of_nat (length ps) - 1)))).
    { move=> i Hi. case: (Hone i Hi) => bs [_ [_ [_ [_ [[_ ->]|[_ [[g [-> _]]|[_ H6]]]]]]]]; [by exists [::]|by exists [:: g]|lia]. }
    move=> ls ->. by exists (List.concat ls).
  - move=> e. rewrite Hcyc. case Em : (mapM _ _) => [ls|e'] /=; first by []. case=> <-.
    elim: (List.seq 1 _) Hone e' Em => [//|i l IH] Hone e'. cbn [mapM]. case Eb : (body i) => [b|eb].
    + cbn [bind]. case Em : (mapM _ _) => [bs|e2] //= [<-]. apply: (IH _ e2 Em) => j Hj. apply: Hone. by right.
    + cbn [bind]. case=> <-. case: (Hone i); first by left. move=> bs [_ [_ [_ [_]]]]. rewrite Eb.
      by case=> [[_ //]|[_ [[g [//]]|[[->]]]]].
Qed.

(* ---- operations on GF objects ---- *)
Definition inF (es : list Z) : Prop := List.Forall (fun z => 0 <= z < 2 ^ Z.of_nat m)%Z es.
Definition zipg (f : gfe -> gfe -> gfe) (a b : list Z) : list Z := List.map (fun xy => gv (f (ofZ (fst xy)) (ofZ (snd xy)))) (List.combine a b).

Lemma zipg_inF f a b : inF (zipg f a b).
Proof. apply/List.Forall_forall => z /List.in_map_iff [xy [<- _]]. exact: gv_range. Qed.
Lemma zipg_length f a b : length a = length b -> length (zipg f a b) = length a.
Proof. move=> H. by rewrite List.map_length List.combine_length -H Nat.min_id. Qed.
Lemma inF_combine a b xy : inF a -> inF b -> List.In xy (List.combine a b) -> (0 <= fst xy < 2 ^ Z.of_nat m)%Z /\ (0 <= snd xy < 2 ^ Z.of_nat m)%Z.
Proof.
  case: xy => x y /List.Forall_forall Ha /List.Forall_forall Hb Hin. split; [apply: Ha|apply: Hb].
  - exact: List.in_combine_l Hin.
  - exact: List.in_combine_r Hin.
Qed.

Lemma ne_len (a b : list Z) : a <> [::] -> length a = length b -> length (List.combine a b) <> O.
Proof. rewrite List.combine_length. case: a => // x a _. case: b => //=. Qed.

Lemma zipg_ne f a b : a <> [::] -> length a = length b -> zipg f a b <> [::].
Proof. move=> Ha Hl E. apply: (ne_len a b Ha Hl). have := List.map_length (fun xy => gv (f (ofZ (fst xy)) (ofZ (snd xy)))) (List.combine a b). by rewrite -/(zipg f a b) E => <-. Qed.

Lemma gf_mul_of a b : List.nth_error primpoly_array m = Some pp -> a <> [::] -> inF a -> inF b -> length a = length b ->
  gf_mul (gf_of a) (gf_of b) = Ok (gf_of (zipg *%R a b)).
Proof.
  move=> Htab Hne Ha Hb Hl. rewrite /gf_mul /elements. cbn [gf_of gf_elements bind gf_m gf_prim]. rewrite Hl Nat.eqb_refl.
  rewrite (mapM_Ok _ (fun xy => gv (ofZ (fst xy) * ofZ (snd xy)))).
  - cbn [bind]. apply: GF_arr_of => //. exact: (zipg_ne *%R).
  - move=> xy Hxy. case: (inF_combine _ _ _ Ha Hb Hxy) => H1 H2. rewrite -{1}(gv_ofZ _ H1) -{1}(gv_ofZ _ H2). exact: gv_mul.
Qed.
Lemma gf_add_of a b : List.nth_error primpoly_array m = Some pp -> a <> [::] -> inF a -> inF b -> length a = length b ->
  gf_add (gf_of a) (gf_of b) = Ok (gf_of (zipg +%R a b)).
Proof.
  move=> Htab Hne Ha Hb Hl. rewrite /gf_add /elements. cbn [gf_of gf_elements bind gf_m gf_prim]. rewrite Hl Nat.eqb_refl.
  have -> : List.map (fun xy => Z.lxor (fst xy) (snd xy)) (List.combine a b) = zipg +%R a b.
  { apply: List.map_ext_in => xy Hxy. case: (inF_combine _ _ _ Ha Hb Hxy) => H1 H2. by rewrite gv_add !gv_ofZ. }
  apply: GF_arr_of => //. exact: (zipg_ne +%R).
Qed.

Lemma zipg_cons f x a y b : zipg f (x :: a) (y :: b) = gv (f (ofZ x) (ofZ y)) :: zipg f a b. Proof. by []. Qed.

Lemma zipg_comm f a b : commutative f -> zipg f a b = zipg f b a.
Proof. move=> C. elim: a b => [|x a IH] [|y b] //. by rewrite !zipg_cons C IH. Qed.
Lemma zipg_assoc f a b c : associative f -> zipg f a (zipg f b c) = zipg f (zipg f a b) c.
Proof. move=> A. elim: a b c => [|x a IH] [|y b] [|z c] //. by rewrite !zipg_cons !ofZ_gv A IH. Qed.
Lemma zipg_dist f g a b c : right_distributive f g -> zipg f a (zipg g b c) = zipg g (zipg f a b) (zipg f a c).
Proof. move=> D. elim: a b c => [|x a IH] [|y b] [|z c] //. by rewrite !zipg_cons !ofZ_gv D IH. Qed.
Lemma zipg_unit f e a : right_id e f -> inF a -> zipg f a (List.repeat (gv e) (length a)) = a.
Proof.
  move=> R. elim: a => [//|x a IH] H. inversion H; subst. cbn [length List.repeat]. rewrite zipg_cons ofZ_gv R IH // gv_ofZ //.
Qed.
Lemma zipg_self a : zipg +%R a a = List.repeat 0%Z (length a).
Proof. elim: a => [//|x a IH]. rewrite zipg_cons IH gchar2 gv0. by []. Qed.
Definition invl (a : list Z) : list Z := List.map (fun x => gv (ofZ x)^-1) a.
Lemma zipg_inv a : inF a -> List.Forall (fun z => z <> 0%Z) a -> zipg *%R a (invl a) = List.repeat 1%Z (length a).
Proof.
  elim: a => [//|x a IH] H Hn. inversion H; subst. inversion Hn; subst. cbn [invl List.map]. rewrite zipg_cons -/(invl a) IH //.
  rewrite ofZ_gv mulfV ?gv1 //. rewrite -gv_eq0 gv_ofZ //. by apply/negP => /Z.eqb_spec.
Qed.
Lemma invl_inF a : inF (invl a).
Proof. apply/List.Forall_forall => z /List.in_map_iff [x [<- _]]. exact: gv_range. Qed.

Lemma ofZ_eq0 z : (0 <= z < 2 ^ Z.of_nat m)%Z -> (ofZ z == 0) = (z =? 0)%Z.
Proof. move=> H. by rewrite -gv_eq0 gv_ofZ. Qed.

(* statements in terms of polynomials *)
Lemma zipg_nth f a b i : length a = length b -> (i < length a)%coq_nat ->
  List.nth i (zipg f a b) 0%Z = gv (f (ofZ (List.nth i a 0%Z)) (ofZ (List.nth i b 0%Z))).
Proof.
  move=> Hl Hi. rewrite /zipg (nth_map_lt _ _ _ (0%Z, 0%Z)); last by rewrite List.combine_length -Hl Nat.min_id.
  by rewrite List.combine_nth.
Qed.
Lemma P_gv u : P (gv u) = rep u. Proof. by []. Qed.
Lemma rep_ofZ z : (0 <= z < 2 ^ Z.of_nat m)%Z -> rep (ofZ z) = P z.
Proof. move=> H. by rewrite -P_gv gv_ofZ. Qed.

Lemma P_pow2 i : P (2 ^ Z.of_nat i) = 'X^i.
Proof. rewrite -(Z.shiftl_1_l (Z.of_nat i)) P_shift // P1 mul1r. by []. Qed.

Lemma rep_alphaX n : rep (alpha ^+ n) = 'X^n %% P pp.
Proof. by rewrite -rep_mk rmorphX. Qed.

Lemma power_to_tuple_of js : List.nth_error primpoly_array m = Some pp -> js <> [::] ->
  List.Forall (fun i => 0 <= i < 63)%Z js ->
  power_to_tuple (gf_of js) = Ok (gf_of (List.map (fun i => gv (alpha ^+ Z.to_nat i)) js)).
Proof.
  move=> Htab Hne HR. rewrite /power_to_tuple /elements. cbn [gf_of gf_elements bind gf_m gf_prim].
  rewrite (mapM_Ok _ (fun i => gv (alpha ^+ Z.to_nat i))).
  - cbn [bind]. apply: GF_arr_of => //. by case: js Hne {HR}.
  - move=> i Hi. move/List.Forall_forall: HR => /(_ i Hi) Hr. rewrite /pow2_int64.
    have -> : (i <? 0)%Z = false by lia. have -> : (i <? 63)%Z = true by lia. cbn [bind].
    have EP : P (2 ^ i) = 'X^(Z.to_nat i) by rewrite -P_pow2 Z2Nat.id; [|lia].
    have Hpos : (0 < 2 ^ i)%Z by apply Z.pow_pos_nonneg; lia.
    have Hmk : mk (P (2 ^ i)) = alpha ^+ Z.to_nat i by rewrite EP rmorphX.
    case: Z.ltb_spec => Hlt.
    + congr Ok. rewrite -Hmk -/(ofZ (2 ^ i)) gv_ofZ //; lia.
    + case: (polydivide_spec (2 ^ i) pp ok_pp ltac:(lia)) => r [-> [Hr0 HrP]]. congr Ok. apply: P_inj; [lia|by case: (gv_range (alpha ^+ Z.to_nat i))|].
      by rewrite HrP P_gv -Hmk rep_mk.
Qed.
End Field.

(* the table of gfields.py consists of primitive polynomials *)
Lemma table_ok m pp : (1 <= m)%coq_nat -> List.nth_error primpoly_array m = Some pp -> prim_ok m pp 256 = true /\ (m <= 16)%coq_nat.
Proof.
  move=> Hm E. have Hlt : (m < length primpoly_array)%coq_nat by apply/List.nth_error_Some; rewrite E. cbn in Hlt.
  split; last lia. have := prim_table. move/List.forallb_forall => H. have Hin : List.In m (List.seq 1 16) by apply/List.in_seq; lia.
  move: (H m Hin). by rewrite E.
Qed.

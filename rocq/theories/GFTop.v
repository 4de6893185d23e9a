(* Final forms of the Galois field theorems (statements repeated in P_GF.v). *)
From Verif Require Import Base UtilModel UtilProofs GFModel GFPoly GFNext GFCoset GFField GFSpec.
Set Warnings "-ambiguous-paths,-notation-overridden".
From mathcomp Require Import all_ssreflect fingroup ssralg finalg zmodp poly polydiv.
Import GRing.Theory.
Local Open Scope ring_scope.

Lemma C13_polydivide_proof :
forall x y : Z, (0 <= x)%Z -> (2 <= y)%Z ->
    exists r : Z, polydivide x y = Ok r /\ (0 <= r < 2 ^ Z.log2 y)%Z /\ P r = P x %% P y.
Proof.
  move=> x y Hx Hy. exact: polydivide_spec.
Qed.

Lemma C13_polydivide_unique_proof :
forall x y r : Z, (0 <= x)%Z -> (2 <= y)%Z -> (0 <= r < 2 ^ Z.log2 y)%Z ->
    (exists q : {poly 'F_2}, P x = q * P y + P r) -> polydivide x y = Ok r.
Proof.
  move=> x y r Hx Hy Hr [q Hq]. case: (polydivide_spec x y Hy Hx) => r' [-> [Hr' HP]]. congr Ok. apply: P_inj; [lia|lia|].
  rewrite HP Hq modpD modp_mull add0r modp_small // (size_P y); last lia. rewrite ltnS. apply: size_P_le. rewrite Z2Nat.id //. exact: Z.log2_nonneg.
Qed.

Lemma C13_polydivide_hangs_proof :
forall (fuel : nat) (x y : Z), (0 <= y <= 1)%Z -> pd_loop fuel x y = Err OutOfFuel.
Proof.
  move=> fuel x y H. exact: pd_loop_hang.
Qed.

Lemma C14_operations_proof :
forall (m : nat) (pp : Z) (a b : list Z), field_of m pp -> in_field m a -> in_field m b -> length a = length b ->
    exists s p : list Z,
      gf_add (gf m pp a) (gf m pp b) = Ok (gf m pp s) /\ gf_mul (gf m pp a) (gf m pp b) = Ok (gf m pp p) /\
      in_field m s /\ in_field m p /\ length s = length a /\ length p = length a /\
      forall i : nat, Nat.lt i (length a) ->
        P (List.nth i s 0%Z) = P (List.nth i a 0%Z) + P (List.nth i b 0%Z) /\
        P (List.nth i p 0%Z) = (P (List.nth i a 0%Z) * P (List.nth i b 0%Z)) %% P pp.
Proof.
  move=> m pp a b [Hm Ht] [Hne Ha] [_ Hb] Hl. have [Hok Hm16] := table_ok m pp Hm Ht.
  exists (zipg m pp 256 Hok +%R a b), (zipg m pp 256 Hok *%R a b).
  split; first exact: gf_add_of. split; first exact: gf_mul_of.
  split; first by split; [exact: zipg_ne|exact: zipg_inF]. split; first by split; [exact: zipg_ne|exact: zipg_inF].
  rewrite !zipg_length //. do 2!split=> //. move=> i Hi. rewrite !zipg_nth // !P_gv.
  have Hai : (0 <= List.nth i a 0 < 2 ^ Z.of_nat m)%Z by move/List.Forall_forall: Ha; apply; exact: List.nth_In.
  have Hbi : (0 <= List.nth i b 0 < 2 ^ Z.of_nat m)%Z by move/List.Forall_forall: Hb; apply; rewrite Hl in Hi; exact: List.nth_In.
  by rewrite (repD m pp 256 Hok) (repM m pp 256 Hok) !rep_ofZ.
Qed.

Lemma C14_field_laws_proof :
forall (m : nat) (pp : Z) (a b c : list Z), field_of m pp -> in_field m a -> in_field m b -> in_field m c ->
    length a = length b -> length b = length c ->
    let A := gf m pp a in let B := gf m pp b in let C := gf m pp c in
    let zeros := gf m pp (List.repeat 0%Z (length a)) in let ones := gf m pp (List.repeat 1%Z (length a)) in
    gf_add A B = gf_add B A /\ gf_mul A B = gf_mul B A /\
    (ab <- gf_add A B ;; gf_add ab C) = (bc <- gf_add B C ;; gf_add A bc) /\
    (ab <- gf_mul A B ;; gf_mul ab C) = (bc <- gf_mul B C ;; gf_mul A bc) /\
    (bc <- gf_add B C ;; gf_mul A bc) = (ab <- gf_mul A B ;; ac <- gf_mul A C ;; gf_add ab ac) /\
    gf_add A zeros = Ok A /\ gf_mul A ones = Ok A /\ gf_add A A = Ok zeros /\
    (List.Forall (fun z => z <> 0%Z) a -> exists a', in_field m a' /\ length a' = length a /\ gf_mul A (gf m pp a') = Ok ones).
Proof.
  move=> m pp a b c [Hm Ht] [Hna Ha] [Hnb Hb] [Hnc Hc] Hab Hbc A B C zeros ones. have [Hok Hm16] := table_ok m pp Hm Ht.
  have Hac : length a = length c by rewrite Hab. have Hba : length b = length a by rewrite Hab.
  have EA : forall x y, x <> [::] -> inF m x -> inF m y -> length x = length y -> gf_add (gf m pp x) (gf m pp y) = Ok (gf m pp (zipg m pp 256 Hok +%R x y)).
  { move=> x y Hx H1 H2 H3. exact: gf_add_of. }
  have EM : forall x y, x <> [::] -> inF m x -> inF m y -> length x = length y -> gf_mul (gf m pp x) (gf m pp y) = Ok (gf m pp (zipg m pp 256 Hok *%R x y)).
  { move=> x y Hx H1 H2 H3. exact: gf_mul_of. }
  have HF : forall f x y, inF m (zipg m pp 256 Hok f x y) by move=> f x y; exact: zipg_inF.
  have HN : forall f x y, x <> [::] -> length x = length y -> zipg m pp 256 Hok f x y <> [::] by move=> f x y; exact: zipg_ne.
  rewrite /A /B /C. split; [|split; [|split; [|split; [|split; [|split; [|split; [|split]]]]]]].
  - rewrite !EA //. congr (Ok (gf _ _ _)). apply: zipg_comm. exact: addrC.
  - rewrite !EM //. congr (Ok (gf _ _ _)). apply: zipg_comm. exact: mulrC.
  - rewrite !EA //. cbn [bind]. rewrite !EA ?zipg_length //; try exact: HN. congr (Ok (gf _ _ _)). symmetry. apply: zipg_assoc. exact: addrA.
  - rewrite !EM //. cbn [bind]. rewrite !EM ?zipg_length //; try exact: HN. congr (Ok (gf _ _ _)). symmetry. apply: zipg_assoc. exact: mulrA.
  - rewrite !EA // !EM //. cbn [bind]. rewrite !EA ?EM ?zipg_length //; try exact: HN. congr (Ok (gf _ _ _)). apply: zipg_dist. exact: mulrDr.
  - have HZ : inF m (List.repeat 0%Z (length a)).
    { apply/List.Forall_forall => z Hz. rewrite (List.repeat_spec _ _ _ Hz). pose proof (pow2m_ge2 m pp 256 Hok). lia. }
    rewrite /zeros EA ?List.repeat_length //. have E0 := zipg_unit m pp 256 Hok _ 0 a (@addr0 _) Ha. rewrite (gv0 m pp 256 Hok) in E0. by rewrite E0.
  - have HZ : inF m (List.repeat 1%Z (length a)).
    { apply/List.Forall_forall => z Hz. rewrite (List.repeat_spec _ _ _ Hz). pose proof (pow2m_ge2 m pp 256 Hok). lia. }
    rewrite /ones EM ?List.repeat_length //. have E0 := zipg_unit m pp 256 Hok _ 1 a (@mulr1 _) Ha. rewrite (gv1 m pp 256 Hok) in E0. by rewrite E0.
  - rewrite EA // zipg_self. by [].
  - move=> Hnz. exists (invl m pp 256 Hok a). have Li : length (invl m pp 256 Hok a) = length a by rewrite List.map_length.
    split; first by split; [by case: (a) Hna|exact: invl_inF]. split=> //. rewrite EM //; last exact: invl_inF. by rewrite zipg_inv.
Qed.

Lemma C14_length_mismatch_proof :
forall (m : nat) (pp : Z) (a b : list Z), length a <> length b ->
    gf_add (gf m pp a) (gf m pp b) = Err ValueError /\ gf_mul (gf m pp a) (gf m pp b) = Err ValueError.
Proof.
  move=> m pp a b H. rewrite /gf_add /gf_mul /elements. cbn [gf gf_elements bind].
  have -> : Nat.eqb (length a) (length b) = false by apply/Nat.eqb_neq. have -> : Nat.eqb (length b) (length a) = false by apply/Nat.eqb_neq => E; apply: H.
  by [].
Qed.

Lemma C14_constructor_proof :
(* an int is stored when it lies in the field; outside, the object has no elements and every operation raises
     AttributeError; an array is stored as it is; no field beyond m = 16 *)
  forall (m : nat) (pp x : Z), field_of m pp ->
    ((0 <= x < 2 ^ Z.of_nat m)%Z -> GF_int x m = Ok (gf m pp [:: x])) /\
    (~ (0 <= x < 2 ^ Z.of_nat m)%Z -> exists g : GF, GF_int x m = Ok g /\
       power_to_tuple g = Err AttributeError /\ tuple_to_power g = Err AttributeError /\ gf_order g = Err AttributeError /\ gf_cosets g = Err AttributeError /\
       forall h : GF, gf_add g h = Err AttributeError /\ gf_add h g = Err AttributeError /\ gf_mul g h = Err AttributeError /\ gf_mul h g = Err AttributeError) /\
    (forall xs : list Z, xs <> [::] -> GF_arr xs m = Ok (gf m pp xs)) /\
    (forall m' : nat, Nat.lt 16 m' -> GF_int x m' = Err IndexError /\ forall xs : list Z, GF_arr xs m' = Err IndexError).
Proof.
  move=> m pp x [Hm Ht]. split; [|split; [|split]].
  - move=> [H0 H1]. rewrite /GF_int Ht. have -> : (0 <=? x)%Z && (x <? 2 ^ Z.of_nat m)%Z = true by apply/andP; split; [apply/Z.leb_le|apply/Z.ltb_lt]. by [].
  - move=> Hn. exists {| gf_m := m; gf_prim := pp; gf_elements := None |}. rewrite /GF_int Ht.
    have -> : (0 <=? x)%Z && (x <? 2 ^ Z.of_nat m)%Z = false by apply/negP => /andP [/Z.leb_le H0 /Z.ltb_lt H1]; apply: Hn.
    do 5!split=> //. move=> [hm hp [es|]]; by do 3!split.
  - move=> xs Hx. exact: gf_constructor.
  - move=> m' Hm'. have E : nth_error primpoly_array m' = None by apply/List.nth_error_None; cbn; lia. rewrite /GF_int /GF_arr E. by [].
Qed.

Lemma C15_tuple_to_power_proof :
forall (m : nat) (pp : Z) (a : list Z), field_of m pp -> in_field m a ->
    exists l : list Z, tuple_to_power (gf m pp a) = Ok (gf m pp l) /\ length l = length a /\
      forall i : nat, Nat.lt i (length a) ->
        (0 <= List.nth i l 0 < 2 ^ Z.of_nat m - 1)%Z /\
        (List.nth i a 0%Z = 0%Z -> List.nth i l 0%Z = 0%Z) /\
        (List.nth i a 0%Z <> 0%Z -> P (List.nth i a 0%Z) = 'X^(Z.to_nat (List.nth i l 0%Z)) %% P pp).
Proof.
  move=> m pp a [Hm Ht] [Hne Ha]. have [Hok Hm16] := table_ok m pp Hm Ht.
  eexists. split; first by apply: (tuple_to_power_of m pp 256 Hok).
  rewrite List.map_length. split=> // i Hi. rewrite (nth_map_lt _ a i 0%Z) //.
  have Hai : (0 <= List.nth i a 0 < 2 ^ Z.of_nat m)%Z by move/List.Forall_forall: Ha; apply; exact: List.nth_In.
  have Hlt := dlog_lt m pp 256 Hok (ofZ m pp 256 Hok (List.nth i a 0%Z)). move/ltP: Hlt => Hlt. have HN := N_Z m pp 256 Hok.
  split; first lia. split.
  - move=> E. rewrite E. have -> : ofZ m pp 256 Hok 0 = 0 by apply/eqP; rewrite ofZ_eq0 //; pose proof (pow2m_ge2 m pp 256 Hok); lia.
    by rewrite /dlog eqxx.
  - move=> Hnz. have Hu : ofZ m pp 256 Hok (List.nth i a 0%Z) != 0 by rewrite ofZ_eq0 //; apply/negP => /Z.eqb_spec.
    case: (dlogP m pp 256 Hok _ Hu) => _ E. rewrite Nat2Z.id -(rep_ofZ m pp 256 Hok) // -{1}E.
    exact: rep_alphaX.
Qed.

Lemma C15_power_to_tuple_proof :
forall (m : nat) (pp : Z) (l : list Z), field_of m pp -> l <> [::] -> List.Forall (fun i => 0 <= i < 63)%Z l ->
    exists a : list Z, power_to_tuple (gf m pp l) = Ok (gf m pp a) /\ in_field m a /\ length a = length l /\
      forall i : nat, Nat.lt i (length l) -> P (List.nth i a 0%Z) = 'X^(Z.to_nat (List.nth i l 0%Z)) %% P pp.
Proof.
  move=> m pp l [Hm Ht] Hne Hl. have [Hok Hm16] := table_ok m pp Hm Ht.
  eexists. split; first by apply: (power_to_tuple_of m pp 256 Hok). split; [split|].
  - by case: (l) Hne.
  - apply/List.Forall_forall => z /List.in_map_iff [j [<- _]]. exact: gv_range.
  - rewrite List.map_length. split=> // i Hi. rewrite (nth_map_lt _ l i 0%Z) // P_gv. exact: rep_alphaX.
Qed.

Lemma C15_roundtrip_proof :
forall (m : nat) (pp : Z) (a : list Z), field_of m pp -> (m <= 6)%coq_nat -> in_field m a -> List.Forall (fun z => z <> 0%Z) a ->
    (l <- tuple_to_power (gf m pp a) ;; power_to_tuple l) = Ok (gf m pp a).
Proof.
  move=> m pp a [Hm Ht] Hm6 [Hne Ha] Hnz. have [Hok Hm16] := table_ok m pp Hm Ht.
  rewrite (tuple_to_power_of m pp 256 Hok) //. cbn [bind]. have HN := N_Z m pp 256 Hok.
  have H64 : (2 ^ Z.of_nat m <= 2 ^ 6)%Z by apply Z.pow_le_mono_r; lia. cbn in H64.
  rewrite (power_to_tuple_of m pp 256 Hok) //.
  - congr (Ok (gf _ _ _)). rewrite List.map_map -[RHS]List.map_id. apply: List.map_ext_in => e He.
    move/List.Forall_forall: Ha => /(_ e He) Hr. move/List.Forall_forall: Hnz => /(_ e He) Hz. rewrite Nat2Z.id.
    have Hu : ofZ m pp 256 Hok e != 0 by rewrite ofZ_eq0 //; apply/negP => /Z.eqb_spec.
    case: (dlogP m pp 256 Hok _ Hu) => _ ->. exact: gv_ofZ.
  - by case: (a) Hne.
  - apply/List.Forall_forall => z /List.in_map_iff [e [<- _]]. have /ltP := dlog_lt m pp 256 Hok (ofZ m pp 256 Hok e). lia.
Qed.

Lemma C15_zero_roundtrip_refuted_proof :
forall (m : nat) (pp : Z), field_of m pp ->
    (l <- tuple_to_power (gf m pp [:: 0%Z]) ;; power_to_tuple l) = Ok (gf m pp [:: 1%Z]).
Proof.
  intros m pp [Hm Hp]. do 17 (destruct m as [|m]; [try lia; injection Hp as <-; vm_compute; reflexivity|]). destruct m; discriminate Hp.
Qed.

Lemma C15_roundtrip_m7_refuted_proof :
exists a : list Z, field_of 7 137 /\ in_field 7 a /\ List.Forall (fun z => z <> 0%Z) a /\
    (l <- tuple_to_power (gf 7 137 a) ;; power_to_tuple l) = Ok (gf 7 137 [:: - 2 ^ 63]%Z).
Proof.
  exists [:: 10%Z]. split; [split; [lia|reflexivity]|]. split; [split; [discriminate|repeat constructor; lia]|].
  split; [by apply: List.Forall_cons; [lia|exact: List.Forall_nil]|vm_compute; reflexivity].
Qed.

Lemma C15_out_of_range_hangs_proof :
forall (fuel m : nat) (pp z : Z), field_of m pp -> (z < 0 \/ 2 ^ Z.of_nat m <= z)%Z ->
    log_loop fuel m pp z 1 0 = Err OutOfFuel.
Proof.
  move=> fuel m pp z [Hm Ht] Hz. have [Hok Hm16] := table_ok m pp Hm Ht.
  have H := log_loop_hang m pp 256 Hok fuel z _ 0%N 0%Z. rewrite expr0 (gv1 m pp 256 Hok) in H. apply: H. lia.
Qed.

Lemma C16_order_proof :
forall (m : nat) (pp : Z) (a : list Z), field_of m pp -> in_field m a ->
    exists os : list Z, gf_order (gf m pp a) = Ok os /\ length os = length a /\
      forall i : nat, Nat.lt i (length a) ->
        let x := List.nth i a 0%Z in let o := List.nth i os 0%Z in
        (x = 0%Z -> o = 1%Z) /\
        (x <> 0%Z -> (1 <= o)%Z /\ (P x ^+ Z.to_nat o) %% P pp = 1 /\
                     forall j : nat, Nat.le 1 j -> (Z.of_nat j < o)%Z -> (P x ^+ j) %% P pp <> 1).
Proof.
  move=> m pp a [Hm Ht] [Hne Ha]. have [Hok Hm16] := table_ok m pp Hm Ht.
  eexists. split; first by rewrite /gf_order (tuple_to_power_of m pp 256 Hok) //; cbn [bind elements gf gf_of gf_elements gf_m]; reflexivity. split; first by rewrite !List.map_length. move=> i Hi x o.
  have Hx : (0 <= x < 2 ^ Z.of_nat m)%Z by move/List.Forall_forall: Ha; apply; exact: List.nth_In.
  have HN := N_Z m pp 256 Hok. have HNp := N_pos m pp 256 Hok.
  have Eo : o = Z.of_nat (Nn m %/ gcdn (dlog m pp 256 Hok (ofZ m pp 256 Hok x)) (Nn m)).
  { rewrite /o List.map_map (nth_map_lt _ a i 0%Z) // -/x -HN. set d := dlog _ _ _ _ _.
    have Hgd : gcdn d (Nn m) = Nat.gcd d (Nn m).
    { apply/eqP. rewrite eqn_dvd. apply/andP; split.
      - apply/dvdnP. have [q Hq] : Nat.divide (gcdn d (Nn m)) (Nat.gcd d (Nn m)).
        { apply Nat.gcd_greatest; [case/dvdnP: (dvdn_gcdl d (Nn m)) => q Hq|case/dvdnP: (dvdn_gcdr d (Nn m)) => q Hq]; by exists q. }
        by exists q.
      - rewrite dvdn_gcd. apply/andP; split; apply/dvdnP.
        + case: (Nat.gcd_divide_l d (Nn m)) => q Hq. by exists q.
        + case: (Nat.gcd_divide_r d (Nn m)) => q Hq. by exists q. }
    have Hg0 : (0 < gcdn d (Nn m))%N by rewrite gcdn_gt0; apply/orP; right; apply/ltP; lia.
    have Hdv := dvdn_gcdr d (Nn m). have Hdiv := divnK Hdv.
    have Hgz : Z.gcd (Z.of_nat d) (Z.of_nat (Nn m)) = Z.of_nat (gcdn d (Nn m)).
    { rewrite Hgd. exact: Zgcd_nat. }
    rewrite Hgz. symmetry. move/ltP: Hg0 => Hg0. apply: (Z.div_unique_exact); first lia.
    rewrite -{1}Hdiv -multE. lia. }
  split.
  - move=> Ex. rewrite Eo Ex. have -> : ofZ m pp 256 Hok 0 = 0 by apply/eqP; rewrite ofZ_eq0 //; lia.
    rewrite /dlog eqxx gcd0n divnn. have -> : (0 < Nn m)%N by apply/ltP; lia. by [].
  - move=> Hnz. have Hu : ofZ m pp 256 Hok x != 0 by rewrite ofZ_eq0 //; apply/negP => /Z.eqb_spec.
    have Hp := order_prim m pp 256 Hok _ Hu. set n := (_ %/ _)%N in Eo Hp.
    have Hpow : forall j, (P x ^+ j) %% P pp = 1 <-> ofZ m pp 256 Hok x ^+ j = 1.
    { move=> j. rewrite -(rep_ofZ m pp 256 Hok) // -repX. split; last by move=> ->; exact: rep1.
      move=> E. apply: (rep_inj m pp 256 Hok). by rewrite E rep1. }
    split; first by have := prim_order_gt0 Hp => /ltP; lia. split.
    + apply/Hpow. rewrite Eo Nat2Z.id. exact: prim_expr_order Hp.
    + move=> j Hj1 Hj2 /Hpow /eqP. rewrite -(prim_order_dvd Hp) => Hd. have := dvdn_leq _ Hd. move=> Hle.
      have /leP : (n <= j)%N by apply: Hle; apply/ltP; lia. lia.
Qed.

Lemma C17_cosets_proof :
forall (m : nat) (pp : Z) (a : list Z), field_of m pp -> in_field m a -> List.NoDup a ->
    exists css : list (list Z), gf_cosets (gf m pp a) = Ok (List.map (gf m pp) css) /\
      (* a partition of the elements into nonempty classes ... *)
      List.Forall (fun c => c <> [::]) css /\ Permutation.Permutation (List.concat css) a /\
      (* ... by: y is x^(2^k) in the field *)
      forall x y, List.In x a -> List.In y a ->
        ((exists c, List.In c css /\ List.In x c /\ List.In y c) <-> exists k : nat, P y = (P x ^+ (2 ^ k)) %% P pp).
Proof.
  move=> m pp a [Hm Ht] [Hne Ha] HD. have [Hok Hm16] := table_ok m pp Hm Ht.
  case: (gf_cosets_spec m pp 256 Hok a Ht Hne Ha HD) => css [E [H1 [H2 H3]]]. exists css. do 3!(split=> //).
  move=> x y Hx Hy. rewrite H3 //. move/List.Forall_forall: Ha => Ha. have Rx := Ha x Hx. have Ry := Ha y Hy.
  split; case=> k Hk; exists k.
  - by rewrite -(rep_ofZ m pp 256 Hok y) // Hk repX rep_ofZ.
  - apply: (rep_inj m pp 256 Hok). by rewrite repX !rep_ofZ.
Qed.

Lemma C18_minimal_polynomials_proof :
forall (m : nat) (pp : Z) (a : list Z), field_of m pp -> in_field m a ->
    exists ps : list Z, gf_minpolys (gf m pp a) = Ok ps /\ length ps = length a /\
      forall i : nat, Nat.lt i (length a) ->
        let x := List.nth i a 0%Z in let p := List.nth i ps 0%Z in
        (1 <= p)%Z /\ P pp %| (P p \Po P x) /\
        (forall q : Z, (1 <= q)%Z -> P pp %| (P q \Po P x) -> (Z.log2 p <= Z.log2 q)%Z).
Proof.
  move=> m pp a [Hm Ht] [Hne Ha]. have [Hok Hm16] := table_ok m pp Hm Ht.
  case: (gf_minpolys_spec m pp 256 Hok a Ht Ha) => ps [E HF]. exists ps. split=> //. have Hl := Forall2_len _ _ _ HF. split=> //.
  move=> i Hi x p. have Hx : (0 <= x < 2 ^ Z.of_nat m)%Z by move/List.Forall_forall: Ha; apply; exact: List.nth_In.
  have HR : conj_poly m pp 256 Hok (ofZ m pp 256 Hok x) p.
  { rewrite /x /p. clear -HF Hi. elim: HF i Hi => [|b q l l' Hq HF IH] [|i] /= Hi; try lia; first exact: Hq. apply: IH. lia. }
  have Hev : forall q, P pp %| (P q \Po P x) <-> (map_poly (emb m pp 256 Hok) (P q)).[ofZ m pp 256 Hok x] = 0.
  { move=> q. rewrite -(mk_eq0 m pp 256 Hok) mk_comp. split; [by move/eqP|by move->]. }
  split; first by case: HR => H0 _; lia. split; first by apply/Hev; exact: conj_poly_root.
  move=> q Hq /Hev Hr. have Hmin := conj_poly_min m pp 256 Hok _ p q HR ltac:(lia) Hr.
  have Hp0 : (0 < p)%Z by case: HR. rewrite !size_P in Hmin; try lia. move/leP: Hmin.
  pose proof (Z.log2_nonneg p). pose proof (Z.log2_nonneg q). lia.
Qed.

Lemma C19_generators_divide_proof :
forall (m n : nat) (k : Z) (l : list Z), (1 <= m)%coq_nat -> (m <= 16)%coq_nat -> Z.of_nat n = (2 ^ Z.of_nat m - 1)%Z ->
    cyclic_code_genpoly n k = Ok l ->
    (forall g : Z, List.In g l -> (1 <= g)%Z /\ Z.log2 g = (Z.of_nat n - k)%Z /\ P g %| ('X^n - 1)) /\
    (* and they are all of them *)
    (forall g : Z, (k < Z.of_nat n)%Z -> (1 <= g)%Z -> Z.log2 g = (Z.of_nat n - k)%Z -> P g %| ('X^n - 1) -> List.In g l).
Proof.
  move=> m n k l Hm Hm16 Hn El. have [pp Ht] : exists pp, List.nth_error primpoly_array m = Some pp.
  { have : List.nth_error primpoly_array m <> None by apply/List.nth_error_Some; cbn; lia. case: (List.nth_error _ _) => // pp _. by exists pp. }
  have [Hok _] := table_ok m pp Hm Ht. have HN := N_Z m pp 256 Hok. have En : n = Nn m by lia. subst n.
  case: (cyclic_spec m pp 256 Hok k Ht Hm16) => H1 _. case: (H1 l El) => Hs Hc. split.
  - move=> g /Hs [Hg [Hlog Hd]]. split; first lia. by split.
  - move=> g Hk Hg Hlog Hd. apply: Hc; first lia. split; first lia. by split.
Qed.

Lemma C19_generators_total_proof :
forall (m n : nat) (k : Z), (1 <= m)%coq_nat -> (m <= 16)%coq_nat -> Z.of_nat n = (2 ^ Z.of_nat m - 1)%Z ->
    ((m <= 5)%coq_nat -> exists l, cyclic_code_genpoly n k = Ok l) /\
    (forall e, cyclic_code_genpoly n k = Err e -> e = TypeError).
Proof.
  move=> m n k Hm Hm16 Hn. have [pp Ht] : exists pp, List.nth_error primpoly_array m = Some pp.
  { have : List.nth_error primpoly_array m <> None by apply/List.nth_error_Some; cbn; lia. case: (List.nth_error _ _) => // pp _. by exists pp. }
  have [Hok _] := table_ok m pp Hm Ht. have HN := N_Z m pp 256 Hok. have En : n = Nn m by lia. subst n.
  case: (cyclic_spec m pp 256 Hok k Ht Hm16) => _ [H2 H3]. by split.
Qed.

Lemma C19_even_rejected_proof :
forall (n : nat) (k : Z), Nat.even n = true -> cyclic_code_genpoly n k = Err ValueError.
Proof.
  move=> n k /Nat.even_spec [j Hj]. rewrite /cyclic_code_genpoly Hj Nat.mul_comm Nat.mod_mul; last by []. by [].
Qed.

Lemma C19_proper_divisor_refuted_proof :
exists l : list Z, cyclic_code_genpoly 5 1 = Ok l /\ List.In 19%Z l /\ ~ (P 19 %| ('X^5 - 1)).
Proof.
  exists [:: 25; 31; 19]%Z. split; first by vm_compute. split; first by right; right; left.
  have -> : 'X^5 - 1 = P 33.
  { rewrite -[33%Z]/(Z.lxor (2 ^ Z.of_nat 5) 1) P_xor // P_pow2 P1. by rewrite -{2}(char2_opp 1). }
  move/modp_eq0P. case: (polydivide_spec 33 19 ltac:(lia) ltac:(lia)) => r [E [_ <-]].
  have -> : r = 7%Z by move: E; vm_compute; case=> <-.
  move/eqP. by rewrite P_eq0.
Qed.

Lemma C20_poly_to_string_proof :
forall x : Z, (0 <= x)%Z -> exists l : list Z, poly_to_string x = Ok l /\
    Sorted.StronglySorted Z.lt l /\ (forall i : Z, List.In i l <-> (0 <= i)%Z /\ Z.testbit x i = true).
Proof.
  exact poly_to_string_spec.
Qed.

(* The two real-valued decoding types of viterbi_decode.  Exact real arithmetic: binary64 rounding of the
   metrics is not modelled. *)
From Coq Require Import Reals.
From Verif Require Import Base UtilModel ViterbiModel.

Definition Rleb (a b : R) : bool := if Rle_dec a b then true else false.
Definition Rsum (l : list R) : R := fold_right Rplus 0%R l.

(* convcode.py 585-587 with utilities.py euclid_dist: ((r - (2*i - 1))**2).sum(); padding value -1 (convcode.py 732) *)
Definition unquantized : dtype R R :=
  {| d_metric := fun r i => l <- np_broadcast2 r (map (fun b => IZR (2 * b - 1)) i) ;;
                            Ok (Rsum (map (fun xy => ((fst xy - snd xy) * (fst xy - snd xy))%R) l));
     d_pad := Ok (-1)%R; d_clip := None |}.

(* convcode.py 581-584: negative log-likelihoods ln(exp(r) + 1) and ln(exp(r) + 1) - r; padding value 0 (730);
   clipped copy (718-719) *)
Definition soft : dtype R R :=
  {| d_metric := fun r i => l <- np_broadcast2 r i ;;
                            Ok (Rsum (map (fun xy => let neg_LL_0 := ln (exp (fst xy) + 1) in let neg_LL_1 := (neg_LL_0 - fst xy)%R in
                                                     if snd xy =? 0 then neg_LL_0 else neg_LL_1) l));
     d_pad := Ok 0%R; d_clip := Some (fun x => Rmax (-500) (Rmin x 500)) |}.

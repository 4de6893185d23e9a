(* Vocabulary of properties C63 and C74 *)
From Coq Require Import Reals.
From Verif Require Import Base Cplx.
Open Scope R_scope.

(* the frequency of row j of a symbol with 2 h rows, in multiples of the carrier spacing: -h, ..., -1, 1, ..., h; there is
   no carrier at frequency 0 *)
Definition carrier (h j : nat) : Z := if (j <? h)%nat then (Z.of_nat j - Z.of_nat h)%Z else (Z.of_nat j - Z.of_nat h + 1)%Z.

(* value at time t (in samples, period n) of the sum of the carriers with the amplitudes of [symbols] *)
Definition waveform (n h : nat) (symbols : list C) (t : Z) : C :=
  Cscale (/ INR n) (Csum (map (fun j => Cmul (nth j symbols C0) (cis (2 * PI * IZR (carrier h j) * IZR t / INR n))) (seq 0 (2 * h)))).

(* a channel with taps g: sample k of the output is the sum of g_l times sample k - l of the input, 0 before the start *)
Definition multipath (g s : list C) : list C :=
  map (fun k => Csum (map (fun l => if (l <=? k)%nat then Cmul (nth l g C0) (nth (k - l) s C0) else C0) (seq 0 (length g)))) (seq 0 (length s)).
(* its frequency response *)
Definition response (n : nat) (g : list C) (f : Z) : C :=
  Csum (map (fun l => Cmul (nth l g C0) (cis (- (2 * PI * IZR f * INR l / INR n)))) (seq 0 (length g))).
(* every row of a symbol times the frequency response at its carrier *)
Definition attenuated (n h : nat) (g symbols : list C) : list C :=
  map (fun j => Cmul (nth j symbols C0) (response n g (carrier h j))) (seq 0 (2 * h)).

(** Lines above and below the polynomials of zsl_prob_erf_inv (src/probability.c:95-132), by
    coefficients in Bernstein's basis.  Written by a generator. *)
From Coq Require Import Reals Lra Lia.
From Verif Require Import PErfInv.
Local Open Scope R_scope.

Lemma qm_lo0 s : (0) <= s <= (3 / 2) -> 0 <= qm s - ((443 / 500) + (23 / 100) * s).
Proof.
  intros Hs. set (u := (s - (0)) / (3 / 2)). set (v := 1 - u).
  assert (Hu : 0 <= u) by (unfold u; lra). assert (Hv : 0 <= v) by (unfold v, u; lra).
  assert (E : qm s - ((443 / 500) + (23 / 100) * s) = (56723 / 250000000) * (u ^ 0 * v ^ 9) + (2532621 / 500000000) * (u ^ 1 * v ^ 8) + (2332686189 / 40000000000) * (u ^ 2 * v ^ 7) + (111056066877 / 400000000000) * (u ^ 3 * v ^ 6) + (173874548667 / 250000000000) * (u ^ 4 * v ^ 5) + (8227493961987 / 8000000000000) * (u ^ 5 * v ^ 4) + (29922043952473677 / 32000000000000000) * (u ^ 6 * v ^ 3) + (33019596534224607 / 64000000000000000) * (u ^ 7 * v ^ 2) + (5089000932253617 / 32000000000000000) * (u ^ 8 * v ^ 1) + (134808541873177193 / 6400000000000000000) * (u ^ 9 * v ^ 0)).
  { replace s with ((0) + (3 / 2) * u) by (unfold u; field). unfold qm, v. field. }
  rewrite E. repeat (apply Rplus_le_le_0_compat; [|apply bern_nonneg; lra]). apply bern_nonneg; lra.
Qed.

Lemma qm_lo1 s : (3 / 2) <= s <= (3) -> 0 <= qm s - ((22 / 25) + (247 / 1000) * s).
Proof.
  intros Hs. set (u := (s - (3 / 2)) / (3 / 2)). set (v := 1 - u).
  assert (Hu : 0 <= u) by (unfold u; lra). assert (Hv : 0 <= v) by (unfold v, u; lra).
  assert (E : qm s - ((22 / 25) + (247 / 1000) * s) = (10008541873177193 / 6400000000000000000) * (u ^ 0 * v ^ 9) + (61176783633233037 / 3200000000000000000) * (u ^ 1 * v ^ 8) + (157796674987100523 / 1600000000000000000) * (u ^ 2 * v ^ 7) + (13968325107138807 / 50000000000000000) * (u ^ 3 * v ^ 6) + (191827341096288243 / 400000000000000000) * (u ^ 4 * v ^ 5) + (6476505442316223 / 12500000000000000) * (u ^ 5 * v ^ 4) + (35149729914671637 / 100000000000000000) * (u ^ 6 * v ^ 3) + (1787983806985287 / 12500000000000000) * (u ^ 7 * v ^ 2) + (193333042888953 / 6250000000000000) * (u ^ 8 * v ^ 1) + (31776240338743 / 12500000000000000) * (u ^ 9 * v ^ 0)).
  { replace s with ((3 / 2) + (3 / 2) * u) by (unfold u; field). unfold qm, v. field. }
  rewrite E. repeat (apply Rplus_le_le_0_compat; [|apply bern_nonneg; lra]). apply bern_nonneg; lra.
Qed.

Lemma qm_lo2 s : (3) <= s <= (49 / 8) -> 0 <= qm s - ((1) + (1 / 5) * s).
Proof.
  intros Hs. set (u := (s - (3)) / (25 / 8)). set (v := 1 - u).
  assert (Hu : 0 <= u) by (unfold u; lra). assert (Hv : 0 <= v) by (unfold v, u; lra).
  assert (E : qm s - ((1) + (1 / 5) * s) = (294276240338743 / 12500000000000000) * (u ^ 0 * v ^ 9) + (17098695296117923 / 50000000000000000) * (u ^ 1 * v ^ 8) + (366446785940434443 / 200000000000000000) * (u ^ 2 * v ^ 7) + (33295274747544978769 / 6400000000000000000) * (u ^ 3 * v ^ 6) + (114435699831501811757 / 12800000000000000000) * (u ^ 4 * v ^ 5) + (4021523772579639302499 / 409600000000000000000) * (u ^ 5 * v ^ 4) + (2851055354000896121891 / 409600000000000000000) * (u ^ 6 * v ^ 3) + (81009549272321726860271 / 26214400000000000000000) * (u ^ 7 * v ^ 2) + (164122154146196535577617 / 209715200000000000000000) * (u ^ 8 * v ^ 1) + (144766160871358913921879 / 1677721600000000000000000) * (u ^ 9 * v ^ 0)).
  { replace s with ((3) + (25 / 8) * u) by (unfold u; field). unfold qm, v. field. }
  rewrite E. repeat (apply Rplus_le_le_0_compat; [|apply bern_nonneg; lra]). apply bern_nonneg; lra.
Qed.

Lemma qt_lo s : (49 / 8) <= s <= (23) -> 0 <= qt s - ((13 / 10) + (29 / 200) * s).
Proof.
  intros Hs. set (u := (s - (49 / 8)) / (135 / 8)). set (v := 1 - u).
  assert (Hu : 0 <= u) by (unfold u; lra). assert (Hv : 0 <= v) by (unfold v, u; lra).
  assert (E : qt s - ((13 / 10) + (29 / 200) * s) = (2066318999332547205821567 / 16777216000000000000000000) * (u ^ 0 * v ^ 8) + (986216288424493638014693 / 524288000000000000000000) * (u ^ 1 * v ^ 7) + (128635872956920891285769 / 16384000000000000000000) * (u ^ 2 * v ^ 6) + (129523837134129006763829 / 8192000000000000000000) * (u ^ 3 * v ^ 5) + (7741907307034423548479 / 409600000000000000000) * (u ^ 4 * v ^ 4) + (1518732892614025564391 / 128000000000000000000) * (u ^ 5 * v ^ 3) + (40985612740346434933 / 8000000000000000000) * (u ^ 6 * v ^ 2) + (996328337828984927 / 2000000000000000000) * (u ^ 7 * v ^ 1) + (53585239694156627 / 1000000000000000000) * (u ^ 8 * v ^ 0)).
  { replace s with ((49 / 8) + (135 / 8) * u) by (unfold u; field). unfold qt, v. field. }
  rewrite E. repeat (apply Rplus_le_le_0_compat; [|apply bern_nonneg; lra]). apply bern_nonneg; lra.
Qed.

Lemma qm_up s : (0) <= s <= (49 / 8) -> 0 <= (8863 / 10000) + (1 / 4) * s - qm s.
Proof.
  intros Hs. set (u := (s - (0)) / (49 / 8)). set (v := 1 - u).
  assert (Hu : 0 <= u) by (unfold u; lra). assert (Hv : 0 <= v) by (unfold v, u; lra).
  assert (E : (8863 / 10000) + (1 / 4) * s - qm s = (18277 / 250000000) * (u ^ 0 * v ^ 9) + (221626363 / 2000000000) * (u ^ 1 * v ^ 8) + (288621493979 / 640000000000) * (u ^ 2 * v ^ 7) + (15156370507131 / 25600000000000) * (u ^ 3 * v ^ 6) + (62218372690481 / 128000000000000) * (u ^ 4 * v ^ 5) + (9027017291389139 / 8192000000000000) * (u ^ 5 * v ^ 4) + (235572036034379680587 / 131072000000000000000) * (u ^ 6 * v ^ 3) + (1601875235248791778373 / 1048576000000000000000) * (u ^ 7 * v ^ 2) + (267737414909044834607 / 419430400000000000000) * (u ^ 8 * v ^ 1) + (178279133208641086078121 / 1677721600000000000000000) * (u ^ 9 * v ^ 0)).
  { replace s with ((0) + (49 / 8) * u) by (unfold u; field). unfold qm, v. field. }
  rewrite E. repeat (apply Rplus_le_le_0_compat; [|apply bern_nonneg; lra]). apply bern_nonneg; lra.
Qed.

Lemma qt_up0 s : (49 / 8) <= s <= (9) -> 0 <= (11 / 10) + (99 / 500) * s - qt s.
Proof.
  intros Hs. set (u := (s - (49 / 8)) / (23 / 8)). set (v := 1 - u).
  assert (Hu : 0 <= u) by (unfold u; lra). assert (Hv : 0 <= v) by (unfold v, u; lra).
  assert (E : (11 / 10) + (99 / 500) * s - qt s = (24541544667452794178433 / 16777216000000000000000000) * (u ^ 0 * v ^ 8) + (6011619147594996760431 / 524288000000000000000000) * (u ^ 1 * v ^ 7) + (3064248351991549178793 / 32768000000000000000000) * (u ^ 2 * v ^ 6) + (3241867741220345797527 / 8192000000000000000000) * (u ^ 3 * v ^ 5) + (358221413609110206541 / 409600000000000000000) * (u ^ 4 * v ^ 4) + (139814064207381924837 / 128000000000000000000) * (u ^ 5 * v ^ 3) + (1567675803561125987 / 2000000000000000000) * (u ^ 6 * v ^ 2) + (605806500296498421 / 2000000000000000000) * (u ^ 7 * v ^ 1) + (49023142638219093 / 1000000000000000000) * (u ^ 8 * v ^ 0)).
  { replace s with ((49 / 8) + (23 / 8) * u) by (unfold u; field). unfold qt, v. field. }
  rewrite E. repeat (apply Rplus_le_le_0_compat; [|apply bern_nonneg; lra]). apply bern_nonneg; lra.
Qed.

Lemma qt_up1 s : (9) <= s <= (12) -> 0 <= (7 / 5) + (4 / 25) * s - qt s.
Proof.
  intros Hs. set (u := (s - (9)) / (3)). set (v := 1 - u).
  assert (Hu : 0 <= u) by (unfold u; lra). assert (Hv : 0 <= v) by (unfold v, u; lra).
  assert (E : (7 / 5) + (4 / 25) * s - qt s = (7023142638219093 / 1000000000000000000) * (u ^ 0 * v ^ 8) + (8837213352308673 / 250000000000000000) * (u ^ 1 * v ^ 7) + (5635631700632781 / 62500000000000000) * (u ^ 2 * v ^ 6) + (5824231414199133 / 31250000000000000) * (u ^ 3 * v ^ 5) + (508887739203609 / 1562500000000000) * (u ^ 4 * v ^ 4) + (778262404693887 / 1953125000000000) * (u ^ 5 * v ^ 3) + (1164518296034991 / 3906250000000000) * (u ^ 6 * v ^ 2) + (237261760515309 / 1953125000000000) * (u ^ 7 * v ^ 1) + (2523504878829 / 122070312500000) * (u ^ 8 * v ^ 0)).
  { replace s with ((9) + (3) * u) by (unfold u; field). unfold qt, v. field. }
  rewrite E. repeat (apply Rplus_le_le_0_compat; [|apply bern_nonneg; lra]). apply bern_nonneg; lra.
Qed.

Lemma qt_up2 s : (12) <= s <= (20) -> 0 <= (39 / 25) + (29 / 200) * s - qt s.
Proof.
  intros Hs. set (u := (s - (12)) / (8)). set (v := 1 - u).
  assert (Hu : 0 <= u) by (unfold u; lra). assert (Hv : 0 <= v) by (unfold v, u; lra).
  assert (E : (39 / 25) + (29 / 200) * s - qt s = (82098628829 / 122070312500000) * (u ^ 0 * v ^ 8) + (119798210573 / 48828125000000) * (u ^ 1 * v ^ 7) + (1831176926251 / 9765625000000) * (u ^ 2 * v ^ 6) + (2053831542289 / 1953125000000) * (u ^ 3 * v ^ 5) + (195772472127 / 78125000000) * (u ^ 4 * v ^ 4) + (250142271111 / 78125000000) * (u ^ 5 * v ^ 3) + (36098050321 / 15625000000) * (u ^ 6 * v ^ 2) + (2795204507 / 3125000000) * (u ^ 7 * v ^ 1) + (88036623 / 625000000) * (u ^ 8 * v ^ 0)).
  { replace s with ((12) + (8) * u) by (unfold u; field). unfold qt, v. field. }
  rewrite E. repeat (apply Rplus_le_le_0_compat; [|apply bern_nonneg; lra]). apply bern_nonneg; lra.
Qed.

Lemma qt_up3 s : (20) <= s <= (23) -> 0 <= (19 / 10) + (243 / 2000) * s - qt s.
Proof.
  intros Hs. set (u := (s - (20)) / (3)). set (v := 1 - u).
  assert (Hu : 0 <= u) by (unfold u; lra). assert (Hv : 0 <= v) by (unfold v, u; lra).
  assert (E : (19 / 10) + (243 / 2000) * s - qt s = (6786623 / 625000000) * (u ^ 0 * v ^ 8) + (2588000599 / 25000000000) * (u ^ 1 * v ^ 7) + (104905803851 / 250000000000) * (u ^ 2 * v ^ 6) + (587163839107 / 625000000000) * (u ^ 3 * v ^ 5) + (3150555761459 / 2500000000000) * (u ^ 4 * v ^ 4) + (255423135739183 / 250000000000000) * (u ^ 5 * v ^ 3) + (1183798805098751 / 2500000000000000) * (u ^ 6 * v ^ 2) + (5273284110237443 / 50000000000000000) * (u ^ 7 * v ^ 1) + (5914760305843373 / 1000000000000000000) * (u ^ 8 * v ^ 0)).
  { replace s with ((20) + (3) * u) by (unfold u; field). unfold qt, v. field. }
  rewrite E. repeat (apply Rplus_le_le_0_compat; [|apply bern_nonneg; lra]). apply bern_nonneg; lra.
Qed.

Lemma low_start s : (0) <= s <= (3 / 2) -> 0 <= (1 - s / 2 + s * s / 6 - s * s * s / 24) * ((443 / 500 + 23 / 100 * s) * (443 / 500 + 23 / 100 * s)) - 7 / 10.
Proof.
  intros Hs. set (u := (s - (0)) / (3 / 2)). set (v := 1 - u).
  assert (Hu : 0 <= u) by (unfold u; lra). assert (Hv : 0 <= v) by (unfold v, u; lra).
  assert (E : (1 - s / 2 + s * s / 6 - s * s * s / 24) * ((443 / 500 + 23 / 100 * s) * (443 / 500 + 23 / 100 * s)) - 7 / 10 = (21249 / 250000) * (u ^ 0 * v ^ 5) + (447573 / 1000000) * (u ^ 1 * v ^ 4) + (1790451 / 2000000) * (u ^ 2 * v ^ 3) + (563067 / 640000) * (u ^ 3 * v ^ 2) + (6366153 / 16000000) * (u ^ 4 * v ^ 1) + (2176191 / 64000000) * (u ^ 5 * v ^ 0)).
  { replace s with ((0) + (3 / 2) * u) by (unfold u; field). unfold v. field. }
  rewrite E. repeat (apply Rplus_le_le_0_compat; [|apply bern_nonneg; lra]). apply bern_nonneg; lra.
Qed.


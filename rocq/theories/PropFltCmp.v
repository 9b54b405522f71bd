(** Property C152: searching a table and the extrema of a matrix in double
    precision (zsl_interp_find_x, zsl_mtx_min, zsl_mtx_max and their _idx
    variants): they only compare, so they are exact.

    [FR x] is the real value of a double, [finite x] says that it is neither
    infinite nor NaN, [fin_or_nan x] that it is not infinite.  [FR2] takes the
    real values of the two coordinates of a point. *)
From Coq Require Import Floats.PrimFloat.
From Coq Require Import ZArith Reals Lra Lia List Bool Arith.
From Verif Require Import Base BaseFacts NumF NumR SpecVec SpecReal SpecMtx SpecInterp SpecFlt MVec MMtx MInterp PMtx PMtxOps PFlt PRgbFlt PropInterp PFltCmp PPoly.
Import ListNotations.
Open Scope R_scope.

(** * The extrema are entries, and no entry that is a number beats them *)
Theorem C152_min :
  forall r c (f : nat -> nat -> double) tl, (0 < r)%nat -> (0 < c)%nat ->
  finite (f 0 0)%nat -> (forall i j, (i < r)%nat -> (j < c)%nat -> fin_or_nan (f i j)) ->
  exists x, mtx_min (mat_of r c f tl) = Ok (0%Z, x)
  /\ (exists i j, (i < r)%nat /\ (j < c)%nat /\ finite (f i j) /\ x = f i j)
  /\ (forall i j, (i < r)%nat -> (j < c)%nat -> finite (f i j) -> FR x <= FR (f i j)).
Proof. exact (@extreme_flt (fun x => x) PrimFloat.ltb lt_key nan_lt). Qed.
Print Assumptions C152_min.

Theorem C152_max :
  forall r c (f : nat -> nat -> double) tl, (0 < r)%nat -> (0 < c)%nat ->
  finite (f 0 0)%nat -> (forall i j, (i < r)%nat -> (j < c)%nat -> fin_or_nan (f i j)) ->
  exists x, mtx_max (mat_of r c f tl) = Ok (0%Z, x)
  /\ (exists i j, (i < r)%nat /\ (j < c)%nat /\ finite (f i j) /\ x = f i j)
  /\ (forall i j, (i < r)%nat -> (j < c)%nat -> finite (f i j) -> FR (f i j) <= FR x).
Proof.
  intros r c f tl Hr Hc F0 HF. destruct (@extreme_flt Ropp fgt gt_key nan_gt r c f tl Hr Hc F0 HF) as (x & E & M & A).
  exists x. split; [exact E|]. split; [exact M|]. intros i j Hi Hj Fij. specialize (A i j Hi Hj Fij). lra.
Qed.
Print Assumptions C152_max.

(** The index is that of the first such entry in row-major order. *)
Theorem C152_min_idx :
  forall r c (f : nat -> nat -> double) tl, (0 < r)%nat -> (0 < c)%nat ->
  finite (f 0 0)%nat -> (forall i j, (i < r)%nat -> (j < c)%nat -> fin_or_nan (f i j)) ->
  exists i j, mtx_min_idx (mat_of r c f tl) = Ok (0%Z, (i, j))
  /\ (i < r)%nat /\ (j < c)%nat /\ finite (f i j)
  /\ (forall a b, (a < r)%nat -> (b < c)%nat -> finite (f a b) -> FR (f i j) <= FR (f a b))
  /\ (forall a b, (a < r)%nat -> (b < c)%nat -> finite (f a b) ->
        (a < i)%nat \/ a = i /\ (b < j)%nat -> FR (f i j) < FR (f a b)).
Proof. exact (@extreme_idx_flt (fun x => x) PrimFloat.ltb lt_key nan_lt). Qed.
Print Assumptions C152_min_idx.

Theorem C152_max_idx :
  forall r c (f : nat -> nat -> double) tl, (0 < r)%nat -> (0 < c)%nat ->
  finite (f 0 0)%nat -> (forall i j, (i < r)%nat -> (j < c)%nat -> fin_or_nan (f i j)) ->
  exists i j, mtx_max_idx (mat_of r c f tl) = Ok (0%Z, (i, j))
  /\ (i < r)%nat /\ (j < c)%nat /\ finite (f i j)
  /\ (forall a b, (a < r)%nat -> (b < c)%nat -> finite (f a b) -> FR (f a b) <= FR (f i j))
  /\ (forall a b, (a < r)%nat -> (b < c)%nat -> finite (f a b) ->
        (a < i)%nat \/ a = i /\ (b < j)%nat -> FR (f a b) < FR (f i j)).
Proof.
  intros r c f tl Hr Hc F0 HF. destruct (@extreme_idx_flt Ropp fgt gt_key nan_gt r c f tl Hr Hc F0 HF) as (i & j & E & Hi & Hj & Fij & A & B).
  exists i, j. split; [exact E|]. split; [exact Hi|]. split; [exact Hj|]. split; [exact Fij|]. split.
  - intros a b Ha Hb Fab. specialize (A a b Ha Hb Fab). lra.
  - intros a b Ha Hb Fab Ho. specialize (B a b Ha Hb Fab Ho). lra.
Qed.
Print Assumptions C152_max_idx.

(** A NaN in the first place is returned as the minimum and as the maximum,
    with code 0, whatever the other entries are. *)
Theorem C152_first_nan_refuted :
  forall r c (f : nat -> nat -> double) tl, (0 < r)%nat -> (0 < c)%nat -> is_nan (f 0 0)%nat = true ->
  mtx_min (mat_of r c f tl) = Ok (0%Z, f 0 0)%nat /\ mtx_max (mat_of r c f tl) = Ok (0%Z, f 0 0)%nat
  /\ mtx_min_idx (mat_of r c f tl) = Ok (0%Z, (0, 0))%nat /\ mtx_max_idx (mat_of r c f tl) = Ok (0%Z, (0, 0))%nat.
Proof.
  intros r c f tl Hr Hc HN.
  refine (conj _ (conj _ (conj _ _))).
  - apply nan_stays; auto using nan_lt_r.
  - apply nan_stays; auto. intros a. exact (nan_lt _ a HN).
  - apply nan_stays_idx; auto using nan_lt_r.
  - apply nan_stays_idx; auto. intros a. exact (nan_lt _ a HN).
Qed.
Print Assumptions C152_first_nan_refuted.

(** * The search makes the same run on doubles as on their real values *)
Theorem C152_search_exact :
  forall fuel (xy : list (double * double)) x, finite x -> (forall p, In p xy -> finite (fst p)) ->
  interp_find_x fuel xy x = interp_find_x fuel (map FR2 xy) (FR x).
Proof. intros. now apply find_x_FR. Qed.
Print Assumptions C152_search_exact.

(** So in a table sorted upwards it finds an interval that holds x ... *)
Theorem C152_ascending :
  forall fuel (xy : list (double * double)) x, fits (map FR2 xy) -> (length xy < fuel)%nat ->
  finite x -> (forall p, In p xy -> finite (fst p)) -> ascending (map FR2 xy) ->
  X (map FR2 xy) 0 <= FR x <= X (map FR2 xy) (length xy - 1) ->
  exists i, interp_find_x fuel xy x = Ok (0%Z, Z.of_nat i)
  /\ (S i < length xy)%nat /\ X (map FR2 xy) i <= FR x <= X (map FR2 xy) (S i).
Proof.
  intros fuel xy x Hf HF Fx Fp HA Hx. rewrite C152_search_exact by auto. rewrite <- (map_length FR2 xy) in HF, Hx |- *.
  now apply C63_ascending.
Qed.
Print Assumptions C152_ascending.

(** ... downwards too ... *)
Theorem C152_descending :
  forall fuel (xy : list (double * double)) x, fits (map FR2 xy) -> (length xy < fuel)%nat ->
  finite x -> (forall p, In p xy -> finite (fst p)) -> descending (map FR2 xy) ->
  X (map FR2 xy) (length xy - 1) < X (map FR2 xy) 0 ->
  X (map FR2 xy) (length xy - 1) <= FR x <= X (map FR2 xy) 0 ->
  exists i, interp_find_x fuel xy x = Ok (0%Z, Z.of_nat i)
  /\ (S i < length xy)%nat /\ X (map FR2 xy) (S i) <= FR x <= X (map FR2 xy) i.
Proof.
  intros fuel xy x Hf HF Fx Fp HA HO Hx. rewrite C152_search_exact by auto. rewrite <- (map_length FR2 xy) in HF, HO, Hx |- *.
  now apply C63_descending.
Qed.
Print Assumptions C152_descending.

(** ... and a value outside the table is refused. *)
Theorem C152_outside :
  forall fuel (xy : list (double * double)) x, fits (map FR2 xy) -> finite x -> (forall p, In p xy -> finite (fst p)) ->
  let first := X (map FR2 xy) 0 in let last := X (map FR2 xy) (length xy - 1) in
  (first <= last -> last < FR x -> interp_find_x fuel xy x = Ok ((- EINVAL)%Z, Z.of_nat (length xy)))
  /\ (first <= last -> FR x < first -> interp_find_x fuel xy x = Ok ((- EINVAL)%Z, (-1)%Z))
  /\ (last < first -> FR x < last -> interp_find_x fuel xy x = Ok ((- EINVAL)%Z, Z.of_nat (length xy)))
  /\ (last < first -> first < FR x -> interp_find_x fuel xy x = Ok ((- EINVAL)%Z, (-1)%Z)).
Proof.
  intros fuel xy x Hf Fx Fp. rewrite C152_search_exact by auto. rewrite <- (map_length FR2 xy). now apply C63_outside.
Qed.
Print Assumptions C152_outside.

(** A NaN lies in no interval, but is not refused: whatever the table, the code
    is 0 and the index is 0. *)
Theorem C152_search_nan_refuted :
  forall fuel (xy : list (double * double)) x, (2 <= length xy)%nat -> (Z.of_nat (length xy) <= 2147483648)%Z ->
  (length xy < fuel)%nat -> is_nan x = true -> interp_find_x fuel xy x = Ok (0%Z, 0%Z).
Proof. intros. now apply find_x_nan. Qed.
Print Assumptions C152_search_nan_refuted.

Definition ex_tab : list (double * double) := [(0, 1); (0.1, 2); (0.3, 0)]%float.
Example C152_nonvacuous : interp_find_x 5 ex_tab 0.2%float = Ok (0%Z, 1%Z)
  /\ mtx_min_idx (mat_of 2 2 (fun i j => if (i =? j)%nat then 0.1 else nan)%float []) = Ok (0%Z, (0, 0)%nat).
Proof. split; vm_compute; reflexivity. Qed.

(** The hypotheses hold of these inputs. *)
Example C152_hypotheses :
  (forall p, In p ex_tab -> finite (fst p)) /\ fits (map FR2 ex_tab) /\ finite 0.2%float
  /\ (forall i j, (i < 2)%nat -> (j < 2)%nat -> fin_or_nan ((if (i =? j)%nat then 0.1 else nan)%float)).
Proof.
  refine (conj _ (conj _ (conj _ _))).
  - intros p [<-|[<-|[<-|[]]]]; reflexivity.
  - unfold fits. cbn. lia.
  - reflexivity.
  - intros i j _ _. destruct (i =? j)%nat; [left|right]; reflexivity.
Qed.

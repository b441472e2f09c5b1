(** TimeSeriesSet::getKBestMatchesBruteForce, genex/TimeSeriesSet.cpp:295-351. *)
From Verif Require Import Base Num TimeSeries Lemire Distance TSSet StdAlg Candidate.
Local Open Scope string_scope.
Local Open Scope Z_scope.

Section BruteForce.
Context {N : Num}.
Notation D := (D N).
Variable H : std_alg.

(** body of the innermost loop, genex/TimeSeriesSet.cpp:321-343: state
    (bestSoFar, k).  The matching argument gNoMatching does not influence the
    value. *)
Definition bf_step (f : dist_fn N) (ratio : D) (d : dataset N) (query : TS N)
  (idx len start : Z) (st : list (cand N) * Z) : res (list (cand N) * Z) :=
  let '(best, k) := st in
  t <- getTimeSeries d idx start (start + len) ;;
  if k >? 0 then
    '(v, _) <- f ratio query t ninf [] ;;
    let best := (best ++ [mkCand t v])%list in
    best <- (if k - 1 =? 0 then make_heap H cand_lt best else Ret best) ;;
    Ret (best, k - 1)
  else
    top <- front best ;;
    '(v, _) <- f ratio query t (c_dist top) [] ;;
    if nltb v (c_dist top) then
      best <- push_heap H cand_lt (best ++ [mkCand t v])%list ;;
      best <- pop_heap H cand_lt best ;;
      best <- pop_back best ;;
      Ret (best, k)
    else Ret (best, k).

(** genex/TimeSeriesSet.cpp:295-351; getItemLength(idx) is read again in each
    loop condition, nothing changes it meanwhile *)
Definition getKBestMatchesBruteForce (ratio : D) (d : dataset N) (query : TS N) (k : Z) (name : string)
  : res (list (cand N)) :=
  if k <=? 0 then Throw (GenexExc "K must be positive") else
  f <- getDistanceFromName (name ++ "_dtw") ;;
  '(best, _) <- for_ 0 (ds_count d) (fun idx st =>
      n <- getItemLength d idx ;;
      for_ 2 (n + 1) (fun len st =>
        for_ 0 (n - len + 1) (fun start st => bf_step f ratio d query idx len start st) st) st) ([], k) ;;
  sort H cand_lt best.

End BruteForce.

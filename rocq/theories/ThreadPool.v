(** The thread pool (genex/lib/ThreadPool.hpp) as a transition system, and the
    grouping with several threads (GlobalGroupSpace::groupMultiThreaded,
    genex/group/GlobalGroupSpace.cpp:90-118) running on it.

    The threads interleave in single steps; what happens between taking and
    releasing the mutex is one or more steps of the thread that holds it.  Memory is
    sequentially consistent.  The formal data race on the function-local static of
    the metric (genex/distance/Distance.hpp) is not modelled. *)
From Coq Require Import String.
From Verif Require Import Base Num TimeSeries Lemire Distance TSSet StdAlg Candidate Group GroupSpace.
Local Open Scope Z_scope.

Section Pool.
(** [V]: group spaces of one length; [new], [gen], [size]: the parts of a task (see
    [pool_of_grouping] below) *)
Context {V : Type}.
Variable new : nat -> res V.
Variable gen : nat -> V -> res V.
Variable size : V -> Z.
(** number of tasks, of threads *)
Variables ntasks nthreads : nat.

(** What a worker does next, genex/lib/ThreadPool.hpp:57-82.
    - [WLock]: take the mutex at the start of an iteration (line 68);
    - [WCheck]: it holds the mutex and looks at stop and the queue (69-74);
    - [WWait]: it sleeps in condition.wait (69);
    - [WWoken]: it was woken and takes the mutex again (69);
    - [WNew t], [WGen t v], [WSet t r]: it runs task [t] (77): constructs the group
      space, generates the groups, stores the outcome into the future;
    - [WExit]: it has returned (72);
    - [WDead]: its task ran into undefined behaviour or does not return. *)
Inductive wstate :=
| WLock | WCheck | WWait | WWoken | WNew (t : nat) | WGen (t : nat) (v : V) | WSet (t : nat) (r : res Z) | WExit | WDead.

(** What the main thread does next.
    - [MLock t]: take the mutex to enqueue task [t] (genex/lib/ThreadPool.hpp:97);
    - [MPush t]: it holds the mutex, pushes the task (100-103);
    - [MNotify t]: condition.notify_one (105);
    - [MGet t total]: groupCounts[t].get() (genex/group/GlobalGroupSpace.cpp:113-115);
    - [MStopLock], [MStop], [MNotifyAll], [MJoin w]: the destructor of the pool
      (genex/lib/ThreadPool.hpp:110-119), run by the return or by the exception;
    - [MDone]: it has left groupMultiThreaded with [r], totalNumberOfGroups being
      [total]. *)
Inductive mstate :=
| MLock (t : nat) | MPush (t : nat) | MNotify (t : nat) | MGet (t : nat) (total : Z)
| MStopLock (total : Z) (r : res Z) | MStop (total : Z) (r : res Z) | MNotifyAll (total : Z) (r : res Z)
| MJoin (w : nat) (total : Z) (r : res Z) | MDone (total : Z) (r : res Z).

Inductive who := Main | Worker (w : nat).

(** class ThreadPool, genex/lib/ThreadPool.hpp:38-55, the futures of the tasks, and
    localLengthGroupSpace: [p_mem t] is the slot task [t] writes *)
Record pool := mkPool {
  p_main : mstate;
  p_work : nat -> wstate;
  p_lock : option who;
  p_queue : list nat;
  p_stop : bool;
  p_fut : nat -> option (res Z);
  p_mem : nat -> option V
}.

Definition fset {A} (f : nat -> A) (k : nat) (v : A) : nat -> A := fun i => if Nat.eqb i k then v else f i.

Definition with_main (s : pool) m := mkPool m (p_work s) (p_lock s) (p_queue s) (p_stop s) (p_fut s) (p_mem s).
Definition with_work (s : pool) w ws := mkPool (p_main s) (fset (p_work s) w ws) (p_lock s) (p_queue s) (p_stop s) (p_fut s) (p_mem s).
Definition with_lock (s : pool) l := mkPool (p_main s) (p_work s) l (p_queue s) (p_stop s) (p_fut s) (p_mem s).
Definition with_queue (s : pool) q := mkPool (p_main s) (p_work s) (p_lock s) q (p_stop s) (p_fut s) (p_mem s).
Definition with_fut (s : pool) t r := mkPool (p_main s) (p_work s) (p_lock s) (p_queue s) (p_stop s) (fset (p_fut s) t (Some r)) (p_mem s).
Definition with_mem (s : pool) t v := mkPool (p_main s) (p_work s) (p_lock s) (p_queue s) (p_stop s) (p_fut s) (fset (p_mem s) t (Some v)).
Definition with_stop (s : pool) := mkPool (p_main s) (p_work s) (p_lock s) (p_queue s) true (p_fut s) (p_mem s).

(** after the constructors of the pool and of the futures' vector
    (genex/lib/ThreadPool.hpp:57-82, genex/group/GlobalGroupSpace.cpp:98-103) *)
Definition pool_init : pool :=
  mkPool (if Nat.eqb ntasks 0 then MGet 0 0 else MLock 0) (fun _ => WLock) None [] false (fun _ => None) (fun _ => None).

(** the outcome of a part of a task: an exception goes into the future
    (std::packaged_task); undefined behaviour and endless loops do not come back *)
Definition after {A} (r : res A) (t : nat) (k : A -> wstate) : wstate :=
  match r with Ret a => k a | Throw e => WSet t (Throw e) | UB _ => WDead | Hang => WDead end.

(** notify_all *)
Definition wake_all (f : nat -> wstate) : nat -> wstate :=
  fun w => match f w with WWait => WWoken | x => x end.

(** Steps.  [true]: condition.wait returns without a notification (a spurious
    wake-up, which the C++ standard allows at any time). *)
Inductive step (s : pool) : bool -> pool -> Prop :=
(* workers, genex/lib/ThreadPool.hpp:61-79 *)
| w_lock w : (w < nthreads)%nat -> p_work s w = WLock -> p_lock s = None ->
    step s false (with_lock (with_work s w WCheck) (Some (Worker w)))
| w_relock w : (w < nthreads)%nat -> p_work s w = WWoken -> p_lock s = None ->
    step s false (with_lock (with_work s w WCheck) (Some (Worker w)))
| w_wait w : (w < nthreads)%nat -> p_work s w = WCheck -> p_lock s = Some (Worker w) -> p_stop s = false -> p_queue s = [] ->
    step s false (with_lock (with_work s w WWait) None)
| w_exit w : (w < nthreads)%nat -> p_work s w = WCheck -> p_lock s = Some (Worker w) -> p_stop s = true -> p_queue s = [] ->
    step s false (with_lock (with_work s w WExit) None)
| w_take w t q : (w < nthreads)%nat -> p_work s w = WCheck -> p_lock s = Some (Worker w) -> p_queue s = t :: q ->
    step s false (with_queue (with_lock (with_work s w (WNew t)) None) q)
| w_new w t v : (w < nthreads)%nat -> p_work s w = WNew t -> new t = Ret v ->
    step s false (with_mem (with_work s w (WGen t v)) t v)
| w_new_fails w t : (w < nthreads)%nat -> p_work s w = WNew t -> (forall v, new t <> Ret v) ->
    step s false (with_work s w (after (new t) t (fun v => WGen t v)))
| w_gen w t v v' : (w < nthreads)%nat -> p_work s w = WGen t v -> gen t v = Ret v' ->
    step s false (with_mem (with_work s w (WSet t (Ret (size v')))) t v')
| w_gen_fails w t v : (w < nthreads)%nat -> p_work s w = WGen t v -> (forall v', gen t v <> Ret v') ->
    step s false (with_work s w (after (gen t v) t (fun v' => WSet t (Ret (size v')))))
| w_set w t r : (w < nthreads)%nat -> p_work s w = WSet t r ->
    step s false (with_fut (with_work s w WLock) t r)
| w_spurious w : (w < nthreads)%nat -> p_work s w = WWait ->
    step s true (with_work s w WWoken)
(* the main thread: enqueue, genex/lib/ThreadPool.hpp:85-107 *)
| m_lock t : p_main s = MLock t -> p_lock s = None ->
    step s false (with_lock (with_main s (MPush t)) (Some Main))
| m_push t : p_main s = MPush t -> p_stop s = false ->
    step s false (with_queue (with_lock (with_main s (MNotify t)) None) (p_queue s ++ [t]))
| m_push_stopped t : p_main s = MPush t -> p_stop s = true ->
    step s false (with_lock (with_main s (MStopLock 0 (Throw (StdExc "enqueue on stopped ThreadPool")))) None)
| m_notify t w : p_main s = MNotify t -> (w < nthreads)%nat -> p_work s w = WWait ->
    step s false (with_work (with_main s (if Nat.eqb (S t) ntasks then MGet 0 0 else MLock (S t))) w WWoken)
| m_notify_none t : p_main s = MNotify t -> (forall w, (w < nthreads)%nat -> p_work s w <> WWait) ->
    step s false (with_main s (if Nat.eqb (S t) ntasks then MGet 0 0 else MLock (S t)))
(* the futures, genex/group/GlobalGroupSpace.cpp:112-117 *)
| m_get t total c : p_main s = MGet t total -> (t < ntasks)%nat -> p_fut s t = Some (Ret c) ->
    step s false (with_main s (MGet (S t) (total + c)))
| m_get_throws t total e : p_main s = MGet t total -> (t < ntasks)%nat -> p_fut s t = Some (Throw e) ->
    step s false (with_main s (MStopLock total (Throw e)))
| m_got_all t total : p_main s = MGet t total -> (ntasks <= t)%nat ->
    step s false (with_main s (MStopLock total (Ret total)))
(* the destructor, genex/lib/ThreadPool.hpp:110-119 *)
| m_stop_lock total r : p_main s = MStopLock total r -> p_lock s = None ->
    step s false (with_lock (with_main s (MStop total r)) (Some Main))
| m_stop total r : p_main s = MStop total r ->
    step s false (with_stop (with_lock (with_main s (MNotifyAll total r)) None))
| m_notify_all total r : p_main s = MNotifyAll total r ->
    step s false (mkPool (MJoin 0 total r) (wake_all (p_work s)) (p_lock s) (p_queue s) (p_stop s) (p_fut s) (p_mem s))
| m_join w total r : p_main s = MJoin w total r -> (w < nthreads)%nat -> p_work s w = WExit ->
    step s false (with_main s (MJoin (S w) total r))
| m_done w total r : p_main s = MJoin w total r -> (nthreads <= w)%nat ->
    step s false (with_main s (MDone total r)).

(** [run n k s]: state [s] is reached by [n] steps, of which [k] are spurious
    wake-ups *)
Inductive run : nat -> nat -> pool -> Prop :=
| run_start : run 0 0 pool_init
| run_step n k s s' b : run n k s -> step s b s' -> run (S n) (if b then S k else k) s'.
End Pool.
Arguments wstate : clear implicits.
Arguments pool : clear implicits.

Section Grouping.
Context {N : Num}.
Notation D := (D N).

(** The pool while it groups the lengths [lo .. lo+n-1]: task [t] groups length
    [lo+t] (_group, genex/group/GlobalGroupSpace.cpp:58-64, 104-111) *)
Definition pool_of_grouping (clock : Z -> bool) (d : dataset N) (pw : dist_fn N) (ratio threshold : D) (lo : Z) (n threads : nat)
  (steps spurious : nat) (s : pool (llgs N)) : Prop :=
  run (fun t => ll_new d (lo + Z.of_nat t))
      (fun t L => generateGroups (clock (lo + Z.of_nat t)) d pw ratio threshold L)
      (fun L => Z.of_nat (length (ll_groups L)))
      n threads steps spurious s.

(** the vector of group spaces in a state of the pool *)
Definition pool_levels (size lo : Z) (s : pool (llgs N)) : list (option (llgs N)) :=
  (repeat None (Z.to_nat (Z.min lo size)) ++ map (p_mem s) (seq 0 (Z.to_nat (size - lo))))%list.

(** groupMultiThreaded, genex/group/GlobalGroupSpace.cpp:90-118: [(gs', r)] is a
    possible outcome.  Before the pool is used it does the same as group. *)
Inductive gg_groupMT (clock : Z -> bool) (d : dataset N) (ratio : D) (gs : ggs N) (name : string) (threshold : D)
  (threads : nat) (whole : bool) : ggs N -> res Z -> Prop :=
| mt_no_distance gs' e : gg_loadDistance (with_levels gs []) name = (gs', Throw e) ->
    gg_groupMT clock d ratio gs name threshold threads whole gs' (Throw e)
| mt_too_long gs' : gg_loadDistance (with_levels gs []) name = (gs', Ret tt) -> ds_maxcol d + 1 < 0 ->
    gg_groupMT clock d ratio gs name threshold threads whole gs' (Throw (StdExc "vector::_M_default_append"))
| mt_pool gs' pw lo steps spurious s total r :
    gg_loadDistance (with_levels gs []) name = (gs', Ret tt) -> 0 <= ds_maxcol d + 1 -> gg_pw gs' = Some pw ->
    lo = Z.max 0 (if whole then ds_maxcol d else 2) ->
    pool_of_grouping clock d pw ratio threshold lo (Z.to_nat (ds_maxcol d + 1 - lo)) threads steps spurious s ->
    p_main s = MDone total r ->
    gg_groupMT clock d ratio gs name threshold threads whole
      (mkGG (gg_name gs') (pool_levels (ds_maxcol d + 1) lo s) (gg_pw gs') (gg_warp gs') (Some threshold) total whole) r.
End Grouping.

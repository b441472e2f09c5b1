(** genex/lib/deque.{h,cpp} and lower_upper_lemire of genex/lib/trillionDTW.cpp. *)
From Verif Require Import Base Num.

(** class deque, genex/lib/deque.h:7-23: a circular buffer of ints filled
    downwards.  [dq_data] comes from malloc: cells start uninitialised. *)
Record deque := mkDeque {
  dq_cap : Z;
  dq_size : Z;
  dq_data : list (option Z);
  dq_f : Z;
  dq_r : Z
}.

(** deque::deque, genex/lib/deque.cpp:5-12 *)
Definition dq_new (capacity : Z) : deque :=
  mkDeque capacity 0 (repeat None (Z.to_nat capacity)) 0 (capacity - 1).

(** deque::push_back, genex/lib/deque.cpp:21-28 *)
Definition dq_push_back (d : deque) (v : Z) : res deque :=
  data' <- aset (dq_data d) (dq_r d) (Some v) ;;
  let r' := dq_r d - 1 in
  let r' := if r' <? 0 then dq_cap d - 1 else r' in
  Ret (mkDeque (dq_cap d) (dq_size d + 1) data' (dq_f d) r').

(** deque::pop_front, genex/lib/deque.cpp:31-37 *)
Definition dq_pop_front (d : deque) : deque :=
  let f' := dq_f d - 1 in
  let f' := if f' <? 0 then dq_cap d - 1 else f' in
  mkDeque (dq_cap d) (dq_size d - 1) (dq_data d) f' (dq_r d).

(** C++ [x % y] on ints: undefined for y = 0, truncating otherwise. *)
Definition cmod (x y : Z) : res Z := if y =? 0 then UB DivByZero else Ret (Z.rem x y).

(** deque::pop_back, genex/lib/deque.cpp:40-44 *)
Definition dq_pop_back (d : deque) : res deque :=
  r' <- cmod (dq_r d + 1) (dq_cap d) ;;
  Ret (mkDeque (dq_cap d) (dq_size d - 1) (dq_data d) (dq_f d) r').

(** deque::front, genex/lib/deque.cpp:47-54 *)
Definition dq_front (d : deque) : res Z :=
  let aux := dq_f d - 1 in
  let aux := if aux <? 0 then dq_cap d - 1 else aux in
  o <- aget (dq_data d) aux ;; init_get o.

(** deque::back, genex/lib/deque.cpp:57-61 *)
Definition dq_back (d : deque) : res Z :=
  aux <- cmod (dq_r d + 1) (dq_cap d) ;;
  o <- aget (dq_data d) aux ;; init_get o.

(** deque::empty, genex/lib/deque.cpp:64-67 *)
Definition dq_empty (d : deque) : bool := dq_size d =? 0.

Section Lemire.
Context {N : Num}.

(** The inner loops [while (!d.empty() && t[i] > t[d.back()]) d.pop_back();]
    (genex/lib/trillionDTW.cpp:36-37; with [<] at 42-43).  [better x y] is the
    comparison of t[i] with t[back].  Each iteration lowers the size by one, so
    the size is enough fuel; running out of fuel with a non-empty queue
    (impossible) is reported as [Hang]. *)
Fixpoint lem_popwhile (better : D N -> D N -> bool) (t : list (D N)) (x : D N)
         (fuel : nat) (d : deque) : res deque :=
  if dq_empty d then Ret d else
  match fuel with
  | O => Hang
  | S fuel' =>
      b <- dq_back d ;;
      y <- aget t b ;;
      if better x y then d' <- dq_pop_back d ;; lem_popwhile better t x fuel' d'
      else Ret d
  end.

Record lem_state := mkLem {
  le_du : deque; le_dl : deque;
  le_u : list (option (D N)); le_l : list (option (D N))
}.

(** [u[i-r-1] = t[du.front()]; l[i-r-1] = t[dl.front()];]
    (genex/lib/trillionDTW.cpp:30-31, 54-55) *)
Definition lem_emit (t : list (D N)) (r i : Z) (s : lem_state) : res lem_state :=
  fu <- dq_front (le_du s) ;; vu <- aget t fu ;;
  u' <- aset (le_u s) (i - r - 1) (Some vu) ;;
  fl <- dq_front (le_dl s) ;; vl <- aget t fl ;;
  l' <- aset (le_l s) (i - r - 1) (Some vl) ;;
  Ret (mkLem (le_du s) (le_dl s) u' l').

(** Body of the first loop, genex/lib/trillionDTW.cpp:26-51 *)
Definition lem_step1 (t : list (D N)) (r i : Z) (s : lem_state) : res lem_state :=
  s <- (if i >? r then lem_emit t r i s else Ret s) ;;
  ti <- aget t i ;; tp <- aget t (i - 1) ;;
  s <- (if nltb tp ti (* t[i] > t[i-1] *) then
          du <- dq_pop_back (le_du s) ;;
          du <- lem_popwhile (fun x y => nltb y x) t ti (Z.to_nat (dq_size du)) du ;;
          Ret (mkLem du (le_dl s) (le_u s) (le_l s))
        else
          dl <- dq_pop_back (le_dl s) ;;
          dl <- lem_popwhile (fun x y => nltb x y) t ti (Z.to_nat (dq_size dl)) dl ;;
          Ret (mkLem (le_du s) dl (le_u s) (le_l s))) ;;
  du <- dq_push_back (le_du s) i ;;
  dl <- dq_push_back (le_dl s) i ;;
  fu <- dq_front du ;;
  if i =? 2 * r + 1 + fu then Ret (mkLem (dq_pop_front du) dl (le_u s) (le_l s))
  else
    fl <- dq_front dl ;;
    if i =? 2 * r + 1 + fl then Ret (mkLem du (dq_pop_front dl) (le_u s) (le_l s))
    else Ret (mkLem du dl (le_u s) (le_l s)).

(** Body of the second loop, genex/lib/trillionDTW.cpp:52-63 *)
Definition lem_step2 (t : list (D N)) (r i : Z) (s : lem_state) : res lem_state :=
  s <- lem_emit t r i s ;;
  fu <- dq_front (le_du s) ;;
  let du := if 2 * r + 1 <=? i - fu then dq_pop_front (le_du s) else le_du s in
  fl <- dq_front (le_dl s) ;;
  let dl := if 2 * r + 1 <=? i - fl then dq_pop_front (le_dl s) else le_dl s in
  Ret (mkLem du dl (le_u s) (le_l s)).

(** lower_upper_lemire(t, len, r, l, u), genex/lib/trillionDTW.cpp:19-64.
    [l] and [u] are freshly allocated arrays of length len
    (genex/TimeSeries.cpp:202-203).  Returns (l, u). *)
Definition lower_upper_lemire (t : list (D N)) (len r : Z)
  : res (list (option (D N)) * list (option (D N))) :=
  if (2 * r + 2 <? 0) then UB OutOfBounds (* malloc of a negative size *) else
  let d0 := dq_new (2 * r + 2) in
  du <- dq_push_back d0 0 ;;
  dl <- dq_push_back d0 0 ;;
  let a0 := repeat None (Z.to_nat len) in
  s <- for_ 1 len (lem_step1 t r) (mkLem du dl a0 a0) ;;
  s <- for_ len (len + r + 1) (lem_step2 t r) s ;;
  Ret (le_l s, le_u s).

End Lemire.

(** The subsequence search of the "trillion" code: the rest of
    genex/lib/trillionDTW.cpp (the envelope is in Lemire.v) and the ordering of
    genex/lib/util.cpp. *)
From Verif Require Import Base Num Lemire.

Section Ucr.
Context {N : Num}.
Notation D := (D N).

(** INF_TRILLION, genex/lib/trillionDTW.h:14 *)
Definition inf_t : D := nofZ (10 ^ 20).

(** the macros min and dist, genex/lib/trillionDTW.cpp:10, 12 *)
Definition cmin (x y : D) : D := if nltb x y then x else y.
Definition sqd (x y : D) : D := nmul (nsub x y) (nsub x y).

(** [(x - mean) / std] *)
Definition zn (mean std x : D) : D := ndiv (nsub x mean) std.

(** [x >= y] on doubles: false on NaN *)
Definition nge (x y : D) : bool := nltb y x || neqb x y.

(** reading a cell of an array obtained from malloc *)
Definition cell {A} (t : list (option A)) (i : Z) : res A := o <- aget t i ;; init_get o.

(** [for (k = 0; k < n; k++) a[k] = f(k);] for an array of n cells *)
Fixpoint build_n {A} (n : nat) (k : Z) (f : Z -> res A) : res (list A) :=
  match n with
  | O => Ret []
  | S n' => x <- f k ;; l <- build_n n' (k + 1) f ;; Ret (x :: l)
  end.
Definition build {A} (n : Z) (f : Z -> res A) : res (list A) := build_n (Z.to_nat n) 0 f.

(** lb_kim_hierarchy, genex/lib/trillionDTW.cpp:71-112.  [t] is the circular
    array, [j] the start of the window in it. *)
Definition lb_kim (t : list (option D)) (q : list D) (j len : Z) (mean std bsf : D) : res D :=
  a0 <- cell t j ;; let x0 := zn mean std a0 in
  b0 <- cell t (len - 1 + j) ;; let y0 := zn mean std b0 in
  q0 <- aget q 0 ;; p0 <- aget q (len - 1) ;;
  let lb := nadd (sqd x0 q0) (sqd y0 p0) in
  if nge lb bsf then Ret lb else
  a1 <- cell t (j + 1) ;; let x1 := zn mean std a1 in
  q1 <- aget q 1 ;;
  let d := cmin (sqd x1 q0) (sqd x0 q1) in
  let d := cmin d (sqd x1 q1) in
  let lb := nadd lb d in
  if nge lb bsf then Ret lb else
  b1 <- cell t (len - 2 + j) ;; let y1 := zn mean std b1 in
  p1 <- aget q (len - 2) ;;
  let d := cmin (sqd y1 p0) (sqd y0 p1) in
  let d := cmin d (sqd y1 p1) in
  let lb := nadd lb d in
  if nge lb bsf then Ret lb else
  a2 <- cell t (j + 2) ;; let x2 := zn mean std a2 in
  q2 <- aget q 2 ;;
  let d := cmin (sqd x0 q2) (sqd x1 q2) in
  let d := cmin d (sqd x2 q2) in
  let d := cmin d (sqd x2 q1) in
  let d := cmin d (sqd x2 q0) in
  let lb := nadd lb d in
  if nge lb bsf then Ret lb else
  b2 <- cell t (len - 3 + j) ;; let y2 := zn mean std b2 in
  p2 <- aget q (len - 3) ;;
  let d := cmin (sqd y0 p2) (sqd y1 p2) in
  let d := cmin d (sqd y2 p2) in
  let d := cmin d (sqd y2 p1) in
  let d := cmin d (sqd y2 p0) in
  Ret (nadd lb d).

(** lb_keogh_cumulative, genex/lib/trillionDTW.cpp:123-140.  Returns the bound
    and the array cb. *)
Definition lb_keogh (order : list Z) (t : list (option D)) (uo lo cb : list D)
    (j len : Z) (mean std bsf : D) : res (D * list D) :=
  '(s, _) <- forb_ 0 len (fun i '(lb, cb) =>
    if negb (nltb lb bsf) then Ret ((lb, cb), true) else
    o <- aget order i ;;
    a <- cell t (o + j) ;;
    u <- aget uo i ;; l <- aget lo i ;;
    let x := zn mean std a in
    let d := if nltb u x then sqd x u else if nltb x l then sqd x l else n0 in
    cb <- aset cb o d ;;
    Ret ((nadd lb d, cb), false)) (n0, cb) ;;
  Ret s.

(** lb_keogh_data_cumulative, genex/lib/trillionDTW.cpp:150-170.  The pointers
    l_buff+I and u_buff+I are the arrays [l], [u] and the offset [off]. *)
Definition lb_keogh_data (order : list Z) (qo cb : list D) (l u : list (option D))
    (off len : Z) (mean std bsf : D) : res (D * list D) :=
  '(s, _) <- forb_ 0 len (fun i '(lb, cb) =>
    if negb (nltb lb bsf) then Ret ((lb, cb), true) else
    o <- aget order i ;;
    u1 <- cell u (off + o) ;; l1 <- cell l (off + o) ;;
    q1 <- aget qo i ;;
    let uu := zn mean std u1 in
    let ll := zn mean std l1 in
    let d := if nltb uu q1 then sqd q1 uu else if nltb q1 ll then sqd q1 ll else n0 in
    cb <- aset cb o d ;;
    Ret ((nadd lb d, cb), false)) (n0, cb) ;;
  Ret s.

(** One cell of dtw, genex/lib/trillionDTW.cpp:198-222.  The state is the array
    cost, the index k and min_cost. *)
Definition dtw_cell (A B : list D) (prev : list D) (r i j : Z) (s : list D * Z * D) : res (list D * Z * D) :=
  let '(cost, k, min_cost) := s in
  if (i =? 0) && (j =? 0) then
    a <- aget A 0 ;; b <- aget B 0 ;;
    cost <- aset cost k (sqd a b) ;;
    Ret (cost, k + 1, sqd a b)
  else
    y <- (if (j - 1 <? 0) || (k - 1 <? 0) then Ret inf_t else aget cost (k - 1)) ;;
    x <- (if (i - 1 <? 0) || (2 * r <? k + 1) then Ret inf_t else aget prev (k + 1)) ;;
    z <- (if (i - 1 <? 0) || (j - 1 <? 0) then Ret inf_t else aget prev k) ;;
    a <- aget A i ;; b <- aget B j ;;
    let c := nadd (cmin (cmin x y) z) (sqd a b) in
    cost <- aset cost k c ;;
    Ret (cost, k + 1, if nltb c min_cost then c else min_cost).

(** One row, genex/lib/trillionDTW.cpp:193-235.  The state is cost, cost_prev, k
    and the result if the function returns early; the two arrays are swapped at
    the end. *)
Definition dtw_row (A B cb : list D) (m r : Z) (bsf : D) (i : Z) (s : list D * list D * Z * option D)
  : res ((list D * list D * Z * option D) * bool) :=
  let '(cost, prev, _, _) := s in
  '(cost, k, min_cost) <-
    for_ (Z.max 0 (i - r)) (Z.min (m - 1) (i + r) + 1) (dtw_cell A B prev r i)
         (cost, Z.max 0 (r - i), inf_t) ;;
  if i + r <? m - 1 then
    c <- aget cb (i + r + 1) ;;
    if nge (nadd min_cost c) bsf then Ret ((cost, prev, k, Some (nadd min_cost c)), true)
    else Ret ((prev, cost, k, None), false)
  else Ret ((prev, cost, k, None), false).

(** dtw, genex/lib/trillionDTW.cpp:176-242 *)
Definition dtw (A B cb : list D) (m r : Z) (bsf : D) : res D :=
  let a0 := repeat inf_t (Z.to_nat (2 * r + 1)) in
  '(s, _) <- forb_ 0 m (dtw_row A B cb m r bsf) (a0, a0, Z.max 0 (2 * r + 1), None) ;;
  let '(_, prev, k, early) := s in
  match early with
  | Some v => Ret v
  | None => aget prev (k - 1)
  end.

(** What fscanf(f, "%lf", &d) sees of a file: the numbers it reads one after the
    other, and whether text follows that is no number (then every further call
    returns 0 and reads nothing) or the file ends there (EOF).  The conversion of
    the text itself is not modelled. *)
Record stream := mkStream { st_vals : list D; st_junk : bool }.

(** [fscanf(f, "%lf", &d)]: the result is not EOF; d; the rest *)
Definition fscan (d : option D) (s : stream) : bool * option D * stream :=
  match st_vals s with
  | v :: vs => (true, Some v, mkStream vs (st_junk s))
  | [] => (st_junk s, d, s)
  end.

(** The loop reading the query, genex/lib/trillionDTW.cpp:354-361.  The number
    after the last one is read, too, before the loop ends. *)
Fixpoint read_query (n : nat) (i : Z) (d : option D) (s : stream) (q : list (option D)) (ex ex2 : D)
  : res (option D * list (option D) * D * D) :=
  let '(go, d, s) := fscan d s in
  match n with
  | O => Ret (d, q, ex, ex2)
  | S n' =>
      if negb go then Ret (d, q, ex, ex2) else
      v <- init_get d ;;
      q <- aset q i (Some v) ;;
      read_query n' (i + 1) d s q (nadd ex v) (nadd ex2 (nmul v v))
  end.

(** mean and standard deviation from the sums, genex/lib/trillionDTW.cpp:364-366, 460-462 *)
Definition mean_of (m : Z) (ex : D) : D := ndiv ex (nofZ m).
Definition std_of (m : Z) (ex ex2 : D) : D :=
  nsqrt (nsub (ndiv ex2 (nofZ m)) (nmul (mean_of m ex) (mean_of m ex))).

(** Conversion double -> int of the result of Index::diff *)
Definition trunc (x : D) : option Z :=
  if nltb x n0 then option_map Z.opp (nfloor (nabs x)) else nfloor x.

(** Index::diff, genex/lib/util.cpp:46-49 *)
Definition index_diff (this other : D) : res Z :=
  match trunc (nsub (nabs other) (nabs this)) with
  | Some k => if (int_min <=? k) && (k <=? int_max) then Ret k else UB BadConversion
  | None => UB BadConversion
  end.

(** qsort(Q_tmp, m, sizeof(Index), Index::comp), genex/lib/trillionDTW.cpp:380.
    [qs] gives the indices in the new order; qsort may do any comparison, so it is
    required that none of them is undefined.  (The C standard also asks for the
    comparison to be an order, which Index::diff is not; see PropsUcr.v.  It is
    taken for granted that qsort leaves a permutation all the same.) *)
Definition sort_query (qs : list D -> list Z) (q : list D) : res (list Z) :=
  if forallb (fun x => forallb (fun y =>
       match index_diff x y with Ret _ => true | _ => false end) q) q
  then Ret (qs q) else UB BadConversion.

(** cb[k] = c[k] + ... + c[m-1], genex/lib/trillionDTW.cpp:494-505 *)
Fixpoint cumulate (c : list D) : list D :=
  match c with
  | [] => []
  | x :: c' =>
      match cumulate c' with
      | [] => [x]
      | s :: l => nadd s x :: s :: l
      end
  end.

(** The variables of the main loop. *)
Record usearch := mkU {
  u_ex : D; u_ex2 : D;
  u_t : list (option D);          (* the circular array, 2m cells *)
  u_cb1 : list D; u_cb2 : list D;
  u_bsf : D; u_loc : Z;
  u_kim : Z; u_keogh : Z; u_keogh2 : Z
}.

(** What is computed once from the query. *)
Record prepared := mkP {
  p_q : list D; p_order : list Z;
  p_qo : list D; p_uo : list D; p_lo : list D
}.

(** it*(EPOCH-m+1), a product of ints *)
Definition chunk_base (epoch m it : Z) : res Z :=
  let b := it * (epoch - m + 1) in
  if (int_min <=? b) && (b <=? int_max) then Ret b else UB IntOverflow.

(** The part of the loop body for a complete window, genex/lib/trillionDTW.cpp:458-525 *)
Definition window_step (p : prepared) (l_buff u_buff : list (option D)) (epoch m r it i : Z) (s : usearch)
  : res usearch :=
  let mean := mean_of m (u_ex s) in
  let std := std_of m (u_ex s) (u_ex2 s) in
  j <- cmod (i + 1) m ;;
  let I := i - (m - 1) in
  kim <- lb_kim (u_t s) (p_q p) j m mean std (u_bsf s) ;;
  s <- (if nltb kim (u_bsf s) then
          '(k1, cb1) <- lb_keogh (p_order p) (u_t s) (p_uo p) (p_lo p) (u_cb1 s) j m mean std (u_bsf s) ;;
          let s := mkU (u_ex s) (u_ex2 s) (u_t s) cb1 (u_cb2 s) (u_bsf s) (u_loc s) (u_kim s) (u_keogh s) (u_keogh2 s) in
          if nltb k1 (u_bsf s) then
            tz <- build m (fun k => a <- cell (u_t s) (k + j) ;; Ret (zn mean std a)) ;;
            '(k2, cb2) <- lb_keogh_data (p_order p) (p_qo p) (u_cb2 s) l_buff u_buff I m mean std (u_bsf s) ;;
            let s := mkU (u_ex s) (u_ex2 s) (u_t s) (u_cb1 s) cb2 (u_bsf s) (u_loc s) (u_kim s) (u_keogh s) (u_keogh2 s) in
            if nltb k2 (u_bsf s) then
              let cb := cumulate (if nltb k2 k1 then u_cb1 s else u_cb2 s) in
              d <- dtw tz (p_q p) cb m r (u_bsf s) ;;
              if nltb d (u_bsf s) then
                b <- chunk_base epoch m it ;;
                Ret (mkU (u_ex s) (u_ex2 s) (u_t s) (u_cb1 s) (u_cb2 s) d (b + i - m + 1) (u_kim s) (u_keogh s) (u_keogh2 s))
              else Ret s
            else Ret (mkU (u_ex s) (u_ex2 s) (u_t s) (u_cb1 s) (u_cb2 s) (u_bsf s) (u_loc s) (u_kim s) (u_keogh s) (u_keogh2 s + 1))
          else Ret (mkU (u_ex s) (u_ex2 s) (u_t s) (u_cb1 s) (u_cb2 s) (u_bsf s) (u_loc s) (u_kim s) (u_keogh s + 1) (u_keogh2 s))
        else Ret (mkU (u_ex s) (u_ex2 s) (u_t s) (u_cb1 s) (u_cb2 s) (u_bsf s) (u_loc s) (u_kim s + 1) (u_keogh s) (u_keogh2 s))) ;;
  old <- cell (u_t s) j ;;
  Ret (mkU (nsub (u_ex s) old) (nsub (u_ex2 s) (nmul old old)) (u_t s) (u_cb1 s) (u_cb2 s)
           (u_bsf s) (u_loc s) (u_kim s) (u_keogh s) (u_keogh2 s)).

(** The loop body for one point of the chunk, genex/lib/trillionDTW.cpp:443-526 *)
Definition point_step (p : prepared) (buffer l_buff u_buff : list (option D)) (epoch m r it i : Z) (s : usearch)
  : res usearch :=
  d <- cell buffer i ;;
  im <- cmod i m ;;
  t <- aset (u_t s) im (Some d) ;;
  t <- aset t (im + m) (Some d) ;;
  let s := mkU (nadd (u_ex s) d) (nadd (u_ex2 s) (nmul d d)) t (u_cb1 s) (u_cb2 s)
               (u_bsf s) (u_loc s) (u_kim s) (u_keogh s) (u_keogh2 s) in
  if m - 1 <=? i then window_step p l_buff u_buff epoch m r it i s else Ret s.

(** The first m-1 points of a chunk, genex/lib/trillionDTW.cpp:410-418: from the
    file for the first chunk, from the end of the buffer for the others. *)
Definition fill_first (it epoch m : Z) (d : option D) (f : stream) (buffer : list (option D))
  : res (option D * stream * list (option D)) :=
  if it =? 0 then
    for_ 0 (m - 1) (fun k '(d, f, buffer) =>
      let '(go, d, f) := fscan d f in
      if go : bool then
        v <- init_get d ;;
        buffer <- aset buffer k (Some v) ;;
        Ret (d, f, buffer)
      else Ret (d, f, buffer)) (d, f, buffer)
  else
    buffer <- for_ 0 (m - 1) (fun k buffer =>
      o <- aget buffer (epoch - m + 1 + k) ;;
      aset buffer k o) buffer ;;
    Ret (d, f, buffer).

(** [while (ep < EPOCH)], genex/lib/trillionDTW.cpp:421-427 *)
Fixpoint fill_rest (n : nat) (ep : Z) (d : option D) (f : stream) (buffer : list (option D))
  : res (Z * option D * stream * list (option D)) :=
  match n with
  | O => Ret (ep, d, f, buffer)
  | S n' =>
      let '(go, d, f) := fscan d f in
      if negb go then Ret (ep, d, f, buffer) else
      v <- init_get d ;;
      buffer <- aset buffer ep (Some v) ;;
      fill_rest n' (ep + 1) d f buffer
  end.

(** The values of the first n cells *)
Definition inited (n : Z) (buffer : list (option D)) : res (list D) :=
  build n (cell buffer).

(** [while (!done)], genex/lib/trillionDTW.cpp:406-535.  Every chunk but the last
    takes at least one number from the file, so one more round than there are
    numbers is enough; with text that is no number at the end of the file the loop
    never ends (until the int [it] overflows).  l_buff and u_buff are taken as new
    arrays of ep cells: the envelope writes these before they are read.  Returns
    the state, it and ep. *)
Fixpoint chunks (n : nat) (p : prepared) (epoch m r it : Z) (d : option D) (f : stream)
    (buffer : list (option D)) (s : usearch) : res (usearch * Z * Z) :=
  match n with
  | O => Hang
  | S n' =>
      '(d, f, buffer) <- fill_first it epoch m d f buffer ;;
      '(ep, d, f, buffer) <- fill_rest (Z.to_nat (epoch - (m - 1))) (m - 1) d f buffer ;;
      if ep <=? m - 1 then Ret (s, it, ep) else
      vals <- inited ep buffer ;;
      '(l_buff, u_buff) <- lower_upper_lemire vals ep r ;;
      dots <- (if epoch - m + 1 =? 0 then UB DivByZero else Ret (Z.quot 1000000 (epoch - m + 1))) ;;
      _ <- cmod it dots ;;
      s <- for_ 0 ep (point_step p buffer l_buff u_buff epoch m r it)
             (mkU n0 n0 (u_t s) (u_cb1 s) (u_cb2 s) (u_bsf s) (u_loc s) (u_kim s) (u_keogh s) (u_keogh2 s)) ;;
      if ep <? epoch then Ret (s, it, ep)
      else chunks n' p epoch m r (it + 1) (Some (last vals n0)) f buffer s
  end.

(** What calculate prints: location, distance, number of points, and the numbers
    of windows left out by the three bounds (printed as percentages of the number
    of points). *)
Record report := mkReport {
  rp_loc : Z; rp_dist : D; rp_scanned : Z;
  rp_kim : Z; rp_keogh : Z; rp_keogh2 : Z
}.

Inductive finish :=
| Exited          (* error(2): a message and exit(EXIT_FAILURE), genex/lib/util.cpp:17-37 *)
| Reported (rp : report).

(** The query: read, z-normalised, its envelope, sorted;
    genex/lib/trillionDTW.cpp:349-390 *)
Definition prepare_query (qs : list D -> list Z) (qf : stream) (m r : Z) : res (prepared * option D) :=
  '(d, q, ex, ex2) <- read_query (Z.to_nat m) 0 None qf (repeat None (Z.to_nat m)) n0 n0 ;;
  q <- build m (fun i => v <- cell q i ;; Ret (zn (mean_of m ex) (std_of m ex ex2) v)) ;;
  '(l, u) <- lower_upper_lemire q m r ;;
  order <- sort_query qs q ;;
  qo <- build m (fun i => o <- aget order i ;; aget q o) ;;
  uo <- build m (fun i => o <- aget order i ;; cell u o) ;;
  lo <- build m (fun i => o <- aget order i ;; cell l o) ;;
  Ret (mkP q order qo uo lo, d).

(** calculate, genex/lib/trillionDTW.cpp:245-572, for buffers of [epoch] numbers.
    [None] is a file that cannot be opened.  malloc is assumed to succeed, except
    that a negative size is reported as an access outside the array. *)
Definition calculate_with (epoch : Z) (qs : list D -> list Z) (data query : option stream) (m r : Z) : res finish :=
  match data, query with
  | Some f, Some qf =>
      if m <? 0 then UB OutOfBounds else
      '(p, d) <- prepare_query qs qf m r ;;
      let z := repeat n0 (Z.to_nat m) in
      '(s, it, ep) <- chunks (S (S (length (st_vals f)))) p epoch m r 0 d f (repeat None (Z.to_nat epoch))
             (mkU n0 n0 (repeat None (Z.to_nat (2 * m))) z z inf_t 0 0 0 0) ;;
      b <- chunk_base epoch m it ;;
      Ret (Reported (mkReport (u_loc s) (nsqrt (u_bsf s)) (b + ep) (u_kim s) (u_keogh s) (u_keogh2 s)))
  | _, _ => Ret Exited
  end.

(** EPOCH, genex/lib/trillionDTW.cpp:266 *)
Definition EPOCH : Z := 100000.

Definition calculate (qs : list D -> list Z) (data query : option stream) (m r : Z) : res finish :=
  calculate_with EPOCH qs data query m r.

End Ucr.

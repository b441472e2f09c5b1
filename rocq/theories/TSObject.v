(** class TimeSeries as a mutable object (genex/TimeSeries.hpp:36-196,
    genex/TimeSeries.cpp): ownership, aliasing, the cached envelope.

    Memory is a list of blocks.  A freed block is [None]; blocks are not reused, so
    that every access through a dangling pointer is [UseAfterFree].  A cell that was
    not written is [None]. *)
From Coq Require Import String.
From Verif Require Import Base Num TimeSeries Lemire Distance.
Local Open Scope Z_scope.

Section Obj.
Context {N : Num}.
Notation D := (D N).

Definition block : Type := option (list (option D)).
Definition heap : Type := list block.
(** a pointer into a block; [None] is nullptr *)
Definition ptr : Type := option (nat * Z).

(** reading and writing [p[i]] *)
Definition rdcell (h : heap) (p : ptr) (i : Z) : res (option D) :=
  match p with
  | None => UB NullDeref
  | Some (b, o) => match nth_error h b with Some (Some cells) => aget cells (o + i) | _ => UB UseAfterFree end
  end.
Definition rd (h : heap) (p : ptr) (i : Z) : res D := c <- rdcell h p i ;; init_get c.
Definition wr (h : heap) (p : ptr) (i : Z) (v : D) : res heap :=
  match p with
  | None => UB NullDeref
  | Some (b, o) =>
      match nth_error h b with
      | Some (Some cells) => cells' <- aset cells (o + i) (Some v) ;; Ret (upd h b (Some cells'))
      | _ => UB UseAfterFree
      end
  end.

(** new data_t[n] with the given cells *)
Definition new_block (h : heap) (cells : list (option D)) : heap * ptr :=
  ((h ++ [Some cells])%list, Some (length h, 0)).
(** delete[] p *)
Definition del_block (h : heap) (p : ptr) : res heap :=
  match p with
  | None => Ret h
  | Some (b, o) => match nth_error h b with
                   | Some (Some _) => if o =? 0 then Ret (upd h b None) else UB OutOfBounds
                   | _ => UB UseAfterFree end
  end.
(** the cells memcpy reads *)
Fixpoint rdcells (h : heap) (p : ptr) (n : nat) (i : Z) : res (list (option D)) :=
  match n with
  | O => Ret []
  | S n' => c <- rdcell h p i ;; cs <- rdcells h p n' (i + 1) ;; Ret (c :: cs)
  end.
Fixpoint rdpts (h : heap) (p : ptr) (n : nat) (i : Z) : res (list D) :=
  match n with
  | O => Ret []
  | S n' => x <- rd h p i ;; xs <- rdpts h p n' (i + 1) ;; Ret (x :: xs)
  end.

(** the members, genex/TimeSeries.hpp:160-175.  The arrays keoghLower and
    keoghUpper belong to one object only (no operation copies these pointers). *)
Record obj := mkObj {
  o_data : ptr;
  o_owner : bool;
  o_index : Z; o_start : Z; o_end : Z; o_length : Z;
  o_valid : bool;                               (* keoghCacheValid *)
  o_lower : option (list (option D));
  o_upper : option (list (option D));
  o_band : option Z                             (* cachedWarpingBand, an int stored in a double *)
}.

(** all objects alive *)
Record world := mkWorld { w_heap : heap; w_objs : list (option obj) }.

Definition get_obj (w : world) (i : nat) : option obj :=
  match nth_error (w_objs w) i with Some o => o | None => None end.
Definition put_obj (w : world) (i : nat) (o : option obj) : world := mkWorld (w_heap w) (upd (w_objs w) i o).
Definition new_obj (w : world) (o : obj) : world := mkWorld (w_heap w) (w_objs w ++ [Some o])%list.
Definition with_heap (w : world) (h : heap) : world := mkWorld h (w_objs w).

(** what an operation returns *)
Inductive out :=
| VUnit | VId (i : nat) | VVal (x : D) | VBool (b : bool) | VArr (a : option (list (option D))).

(** TimeSeries(data, index, start, end), TimeSeries(data, length),
    genex/TimeSeries.cpp:18-35 *)
Definition fresh (p : ptr) (owner : bool) (index start end_ len : Z) : obj :=
  mkObj p owner index start end_ len false None None None.
Definition ts_mk_view (w : world) (p : ptr) (index start end_ : Z) : world * res out :=
  (new_obj w (fresh p false index start end_ (end_ - start)), Ret (VId (length (w_objs w)))).
Definition ts_mk_data (w : world) (p : ptr) (len : Z) : world * res out :=
  (new_obj w (fresh p false 0 0 len len), Ret (VId (length (w_objs w)))).

(** TimeSeries(length), genex/TimeSeries.cpp:37-46 *)
Definition ts_mk_owned (w : world) (len : Z) : world * res out :=
  if len <? 0 then (w, Throw (StdExc "bad_array_new_length")) else
  let '(h, p) := new_block (w_heap w) (repeat (Some n0) (Z.to_nat len)) in
  (new_obj (with_heap w h) (fresh p true 0 0 len len), Ret (VId (length (w_objs w)))).

(** new data_t[n]; memcpy(..., src, n * sizeof(data_t)) *)
Definition dup (h : heap) (src : ptr) (n : Z) : res (heap * ptr) :=
  if n <? 0 then Throw (StdExc "bad_array_new_length") else
  cells <- rdcells h src (Z.to_nat n) 0 ;; Ret (new_block h cells).

(** TimeSeries(const TimeSeries&), genex/TimeSeries.cpp:48-65 *)
Definition ts_copy (w : world) (i : nat) : world * res out :=
  match get_obj w i with
  | None => (w, UB UseAfterFree)
  | Some o =>
      if o_owner o then
        match dup (w_heap w) (o_data o) (o_length o) with
        | Ret (h, p) => (new_obj (with_heap w h) (fresh p true (o_index o) (o_start o) (o_end o) (o_length o)),
                         Ret (VId (length (w_objs w))))
        | Throw e => (w, Throw e) | UB u => (w, UB u) | Hang => (w, Hang)
        end
      else (new_obj w (fresh (o_data o) false (o_index o) (o_start o) (o_end o) (o_length o)), Ret (VId (length (w_objs w))))
  end.

(** the members taken over by an assignment; the cache members stay as they are
    (genex/TimeSeries.cpp:84-88, 104-108) *)
Definition taken (o src : obj) (p : ptr) : obj :=
  mkObj p (o_owner src) (o_index src) (o_start src) (o_end src) (o_length src)
        (o_valid o) (o_lower o) (o_upper o) (o_band o).

(** operator=(const TimeSeries&), genex/TimeSeries.cpp:67-91.  The new array has the
    old length of the target (line 76).  When an object is assigned to itself
    and owns its data, line 77 copies the new array onto itself. *)
Definition ts_assign (w : world) (i j : nat) : world * res out :=
  match get_obj w i, get_obj w j with
  | Some oi, Some oj =>
      match (if o_owner oi then del_block (w_heap w) (o_data oi) else Ret (w_heap w)) with
      | Ret h =>
          if o_owner oj then
            if o_length oi <? 0 then (with_heap w h, Throw (StdExc "bad_array_new_length")) else
            match (if Nat.eqb i j then Ret (repeat None (Z.to_nat (o_length oi)))
                   else rdcells h (o_data oj) (Z.to_nat (o_length oi)) 0) with
            | Ret cells => let '(h', p) := new_block h cells in
                           (put_obj (with_heap w h') i (Some (taken oi oj p)), Ret VUnit)
            | Throw e => (w, Throw e) | UB u => (w, UB u) | Hang => (w, Hang)
            end
          else (put_obj (with_heap w h) i (Some (taken oi oj (o_data oj))), Ret VUnit)
      | Throw e => (w, Throw e) | UB u => (w, UB u) | Hang => (w, Hang)
      end
  | _, _ => (w, UB UseAfterFree)
  end.

(** operator=(TimeSeries&&), genex/TimeSeries.cpp:93-111 *)
Definition ts_move (w : world) (i j : nat) : world * res out :=
  match get_obj w i, get_obj w j with
  | Some oi, Some oj =>
      match (if o_owner oi then del_block (w_heap w) (o_data oi) else Ret (w_heap w)) with
      | Ret h =>
          let w1 := put_obj (with_heap w h) i (Some (taken oi oj (o_data oj))) in
          match get_obj w1 j with
          | Some oj' => (put_obj w1 j (Some (mkObj None (o_owner oj') (o_index oj') (o_start oj') (o_end oj') (o_length oj')
                                               (o_valid oj') (o_lower oj') (o_upper oj') (o_band oj'))), Ret VUnit)
          | None => (w, UB UseAfterFree)
          end
      | Throw e => (w, Throw e) | UB u => (w, UB u) | Hang => (w, Hang)
      end
  | _, _ => (w, UB UseAfterFree)
  end.

(** ~TimeSeries, genex/TimeSeries.cpp:113-125 *)
Definition ts_destroy (w : world) (i : nat) : world * res out :=
  match get_obj w i with
  | None => (w, UB UseAfterFree)
  | Some o =>
      match (if o_owner o then del_block (w_heap w) (o_data o) else Ret (w_heap w)) with
      | Ret h => (put_obj (with_heap w h) i None, Ret VUnit)
      | Throw e => (w, Throw e) | UB u => (w, UB u) | Hang => (w, Hang)
      end
  end.

(** operator[], genex/TimeSeries.cpp:127-133: it returns a reference, so elements
    can be read and written *)
Definition range_error {A} : res A := Throw (GenexExc "Data point index is out of range").
Definition at_ (h : heap) (o : obj) (k : Z) : res D :=
  if (k <? 0) || (o_length o <=? k) then range_error else rd h (o_data o) (o_start o + k).
Definition ts_at (w : world) (i : nat) (k : Z) : world * res out :=
  match get_obj w i with
  | None => (w, UB UseAfterFree)
  | Some o => (w, x <- at_ (w_heap w) o k ;; Ret (VVal x))
  end.
Definition ts_set (w : world) (i : nat) (k : Z) (v : D) : world * res out :=
  match get_obj w i with
  | None => (w, UB UseAfterFree)
  | Some o =>
      if (k <? 0) || (o_length o <=? k) then (w, range_error) else
      match wr (w_heap w) (o_data o) (o_start o + k) v with
      | Ret h => (with_heap w h, Ret VUnit)
      | Throw e => (w, Throw e) | UB u => (w, UB u) | Hang => (w, Hang)
      end
  end.

(** operator+=, genex/TimeSeries.cpp:135-147 *)
Definition add_step (oi oj : obj) (k : Z) (h : heap) : res heap :=
  x <- rd h (o_data oi) (o_start oi + k) ;;
  y <- at_ h oj k ;;
  wr h (o_data oi) (o_start oi + k) (nadd x y).
Definition ts_add (w : world) (i j : nat) : world * res out :=
  match get_obj w i, get_obj w j with
  | Some oi, Some oj =>
      if negb (o_length oj =? o_length oi) then
        (w, Throw (GenexExc "Two time series must have the same length for addition")) else
      match for_ 0 (o_length oi) (add_step oi oj) (w_heap w) with
      | Ret h => (put_obj (with_heap w h) i
                    (Some (mkObj (o_data oi) (o_owner oi) (o_index oi) (o_start oi) (o_end oi) (o_length oi)
                             false (o_lower oi) (o_upper oi) (o_band oi))), Ret VUnit)
      | Throw e => (w, Throw e) | UB u => (w, UB u) | Hang => (w, Hang)
      end
  | _, _ => (w, UB UseAfterFree)
  end.

(** comparison of pointers *)
Definition ptr_eqb (p q : ptr) : bool :=
  match p, q with
  | None, None => true
  | Some (b, o), Some (b', o') => Nat.eqb b b' && (o =? o')
  | _, _ => false
  end.

(** operator==, genex/TimeSeries.cpp:149-166 *)
Definition eq_step (h : heap) (oi oj : obj) (k : Z) (_ : unit) : res (unit * bool) :=
  x <- rd h (o_data oi) (o_start oi + k) ;;
  y <- rd h (o_data oj) (o_start oj + k) ;;
  Ret (tt, nltb neps (nabs (nsub x y))).
Definition ts_eq (w : world) (i j : nat) : world * res out :=
  match get_obj w i, get_obj w j with
  | Some oi, Some oj =>
      if ptr_eqb (o_data oi) (o_data oj) then (w, Ret (VBool true)) else
      match o_data oi, o_data oj with
      | Some _, Some _ =>
          if negb (o_length oi =? o_length oj) then (w, Ret (VBool false)) else
          (w, '(_, differ) <- forb_ 0 (o_length oi) (eq_step (w_heap w) oi oj) tt ;; Ret (VBool (negb differ)))
      | _, _ => (w, Ret (VBool false))
      end
  | _, _ => (w, UB UseAfterFree)
  end.

(** average, genex/TimeSeries.cpp:168-174: [sum] is not initialised (169) and read
    by the first addition, or by the division *)
Definition avg_step (h : heap) (o : obj) (k : Z) (sum : option D) : res (option D) :=
  x <- rd h (o_data o) (o_start o + k) ;; s <- init_get sum ;; Ret (Some (nadd s x)).
Definition ts_average (w : world) (i : nat) : world * res out :=
  match get_obj w i with
  | None => (w, UB UseAfterFree)
  | Some o =>
      (w, sum <- for_ 0 (o_length o) (avg_step (w_heap w) o) None ;;
          s <- init_get sum ;; Ret (VVal (ndiv s (nofZ (o_length o)))))
  end.

(** generateKeoghLU, genex/TimeSeries.cpp:195-212, for a length that is not negative.
    lower_upper_lemire reads every point. *)
Definition generate (h : heap) (o : obj) (band : Z) : res (list (option D) * list (option D)) :=
  xs <- rdpts h (o_data o) (Z.to_nat (o_length o)) (o_start o) ;;
  keoghLU (ts_of_list xs) band.

(** getKeoghLower, getKeoghUpper, genex/TimeSeries.cpp:177-193 *)
Definition cached (o : obj) (band : Z) : res bool :=
  if o_valid o then b <- init_get (o_band o) ;; Ret (band =? b) else Ret false.
Definition ts_keogh (upper : bool) (w : world) (i : nat) (band : Z) : world * res out :=
  match get_obj w i with
  | None => (w, UB UseAfterFree)
  | Some o =>
      match cached o band with
      | Ret true => (w, Ret (VArr (if upper then o_upper o else o_lower o)))
      | Ret false =>
          if o_length o <? 0 then
            (* new data_t[length] throws after both arrays were deleted *)
            (put_obj w i (Some (mkObj (o_data o) (o_owner o) (o_index o) (o_start o) (o_end o) (o_length o)
                                 (o_valid o) None None (o_band o))), Throw (StdExc "bad_array_new_length")) else
          match generate (w_heap w) o band with
          | Ret (lo, up) =>
              (put_obj w i (Some (mkObj (o_data o) (o_owner o) (o_index o) (o_start o) (o_end o) (o_length o)
                                   true (Some lo) (Some up) (Some band))),
               Ret (VArr (Some (if upper then up else lo))))
          | Throw e => (w, Throw e) | UB u => (w, UB u) | Hang => (w, Hang)
          end
      | Throw e => (w, Throw e) | UB u => (w, UB u) | Hang => (w, Hang)
      end
  end.

(** memory that belongs to others: a data set allocates its buffer, writes into it
    (loading, normalising; genex/TimeSeriesSet.cpp), frees it *)
Definition buf_new (w : world) (cells : list (option D)) : world * res out :=
  (with_heap w (fst (new_block (w_heap w) cells)), Ret VUnit).
Definition buf_write (w : world) (b : nat) (k : Z) (v : D) : world * res out :=
  match wr (w_heap w) (Some (b, 0)) k v with
  | Ret h => (with_heap w h, Ret VUnit)
  | Throw e => (w, Throw e) | UB u => (w, UB u) | Hang => (w, Hang)
  end.
Definition buf_free (w : world) (b : nat) : world * res out :=
  match del_block (w_heap w) (Some (b, 0)) with
  | Ret h => (with_heap w h, Ret VUnit)
  | Throw e => (w, Throw e) | UB u => (w, UB u) | Hang => (w, Hang)
  end.

(** the operations of a program *)
Inductive op :=
| OBuf (cells : list (option D)) | OWrite (b : nat) (k : Z) (v : D) | OFree (b : nat)
| OView (p : ptr) (index start end_ : Z) | OData (p : ptr) (len : Z) | OOwned (len : Z)
| OCopy (i : nat) | OAssign (i j : nat) | OMove (i j : nat) | ODestroy (i : nat)
| OAt (i : nat) (k : Z) | OSet (i : nat) (k : Z) (v : D) | OAdd (i j : nat) | OEq (i j : nat) | OAverage (i : nat)
| OLower (i : nat) (band : Z) | OUpper (i : nat) (band : Z).

Definition exec (x : op) (w : world) : world * res out :=
  match x with
  | OBuf cells => buf_new w cells
  | OWrite b k v => buf_write w b k v
  | OFree b => buf_free w b
  | OView p index s e => ts_mk_view w p index s e
  | OData p len => ts_mk_data w p len
  | OOwned len => ts_mk_owned w len
  | OCopy i => ts_copy w i
  | OAssign i j => ts_assign w i j
  | OMove i j => ts_move w i j
  | ODestroy i => ts_destroy w i
  | OAt i k => ts_at w i k
  | OSet i k v => ts_set w i k v
  | OAdd i j => ts_add w i j
  | OEq i j => ts_eq w i j
  | OAverage i => ts_average w i
  | OLower i band => ts_keogh false w i band
  | OUpper i band => ts_keogh true w i band
  end.

Definition world0 : world := mkWorld [] [].
End Obj.
Arguments heap : clear implicits.
Arguments obj : clear implicits.
Arguments world : clear implicits.
Arguments out : clear implicits.
Arguments op : clear implicits.

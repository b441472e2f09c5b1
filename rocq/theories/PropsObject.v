(** C38, C39, C44: time series objects. *)
From Coq Require Import String.
From Flocq Require Import IEEE754.BinarySingleNaN.
From Verif Require Import Base Num NumB64 NumLaws LoopFacts DataProofs PAAProofs TimeSeries Lemire Distance DtwSpec DistSpec DistLink PropsDistance
  TSObject TSObjSpec TSObjProofs TSObjOwn TSObjValue.
Local Open Scope Z_scope.
Local Open Scope list_scope.

Notation points := TSObjSpec.value.
Notation bworld := (world B64).
Notation bop := (op B64).

(** ** Running a program, for the examples and the refutations *)
Definition legalb (w : bworld) (x : bop) : bool :=
  match x with
  | OView (Some (b, _)) _ _ _ | OData (Some (b, _)) _ => Nat.ltb b (length (w_heap w))
  | OView None _ _ _ | OData None _ => true
  | OFree b => forallb (fun o => match o with Some o => negb (o_owner o) || negb (match o_data o with Some (b', _) => Nat.eqb b b' | None => false end) | None => true end) (w_objs w)
  | _ => true
  end.
Definition definedb {A} (r : res A) : bool := match r with Ret _ | Throw _ => true | _ => false end.
Fixpoint run (l : list bop) (w : bworld) : option bworld :=
  match l with
  | [] => Some w
  | x :: l' => if legalb w x then match exec x w with (w', r) => if definedb r then run l' w' else None end else None
  end.
Lemma legalb_ok w x : legalb w x = true -> legal w x.
Proof.
  destruct x as [| |b|[[]|]|[[]|]| | | | | | | | | | | |]; cbn; auto; try (intros H; apply Nat.ltb_lt in H; auto).
  intros H i (o & off & Hg & Ho & Hd). unfold get_obj in Hg. destruct (nth_error (w_objs w) i) as [o'|] eqn:E; [|discriminate]. subst o'.
  apply nth_error_In in E. rewrite forallb_forall in H. specialize (H _ E). cbn in H. rewrite Ho, Hd, Nat.eqb_refl in H. discriminate.
Qed.
Lemma run_history l2 : forall l1 w w', history any l1 w -> run l2 w = Some w' -> history any (l1 ++ l2) w'.
Proof.
  induction l2 as [|x l2 IH]; intros l1 w w' H E; cbn in E.
  - injection E as <-. rewrite app_nil_r. auto.
  - destruct (legalb w x) eqn:El; [|discriminate]. destruct (exec x w) as [w1 r] eqn:Ex. destruct (definedb r) eqn:Ed; [|discriminate].
    replace (l1 ++ x :: l2) with ((l1 ++ [x]) ++ l2) by (rewrite <- app_assoc; reflexivity). apply (IH _ w1); auto.
    eapply one_more; eauto; [apply legalb_ok; auto|exact I|destruct r; easy].
Qed.

(** ** C38 *)
Definition envelope (upper : bool) (i : nat) (band : Z) : bop := if upper then OUpper i band else OLower i band.

(** What is missing compared to the full property: histories with operations that are not
    [quiet]; for these the statement is false, see below. *)
Theorem C38_envelope_is_current_partial : forall (l : list bop) (w : bworld) (i : nat) (pts : list (D B64)) (band : Z) (upper : bool),
  history quiet l w -> points w i pts -> pts <> [] -> Forall (fun x => is_nan x = false) pts -> 0 <= band ->
  exists w' a, exec (envelope upper i band) w = (w', Ret (VArr (Some a))) /\
    length a = length pts /\
    (forall k, 0 <= k < Z.of_nat (length pts) -> exists v, aget a k = Ret (Some v) /\
       if upper then largest_near (N := B64) (ts_of_list (N := B64) pts) band k v else smallest_near (N := B64) (ts_of_list (N := B64) pts) band k v) /\
    (forall m q, points w m q -> points w' m q).
Proof.
  intros l w i pts band upper H (o & Hg & Hv) Hne Hn Hb.
  assert (Hp : ts_points (ts_of_list (N := B64) pts) = pts) by (unfold ts_points, ts_of_list; cbn; rewrite Nat2Z.id; apply firstn_all).
  destruct (C07_envelope_is_sliding_min_max (ts_of_list (N := B64) pts) band) as (lo & up & E & L1 & L2 & Hk); auto.
  - unfold ts_ok, ts_of_list. cbn. lia.
  - cbn. destruct pts; [contradiction|]. cbn [length]. lia.
  - rewrite Hp. auto.
  - cbn [ts_length ts_of_list] in *.
    destruct (cached_value upper w i o pts band (inv_history l w H) Hg Hv lo up E) as (w' & Ex & Hval).
    exists w', (if upper then up else lo). splits; auto.
    + destruct upper; exact Ex.
    + destruct upper; lia.
    + intros k Hkk. destruct (Hk k Hkk) as [Hu Hlo]. destruct upper; auto.
Qed.
Print Assumptions C38_envelope_is_current_partial.

(** the same histories, decided *)
Definition coversb (o : obj B64) (b : nat) (a : Z) : bool :=
  match o_data o with Some (b', off) => Nat.eqb b b' && (off + o_start o <=? a) && (a <? off + o_start o + o_length o) | None => false end.
Lemma coversb_ok o b a : covers o b a -> coversb o b a = true.
Proof. intros (off & E & H). unfold coversb. rewrite E, Nat.eqb_refl. cbn. apply andb_true_intro. split; [apply Z.leb_le|apply Z.ltb_lt]; lia. Qed.
Definition nocache (w : bworld) (except : nat) (b : nat) (a : Z) : bool :=
  forallb (fun j => Nat.eqb j except || match get_obj w j with Some o => negb (o_valid o) || negb (coversb o b a) | None => true end) (seq 0 (length (w_objs w))).
Lemma nocache_ok w ex b a : nocache w ex b a = true -> forall j o, caching w j o -> j <> ex -> ~ covers o b a.
Proof.
  intros H j o [Hg Hv] Hne Hc. unfold nocache in H. rewrite forallb_forall in H. specialize (H j).
  rewrite in_seq in H. pose proof (get_lt w j o Hg). destruct (Nat.eqb_spec j ex); [contradiction|]. rewrite Hg, Hv, (coversb_ok _ _ _ Hc) in H. cbn in H.
  discriminate H. lia.
Qed.
Definition quietb (w : bworld) (x : bop) : bool :=
  match x with
  | OWrite b k _ => nocache w (length (w_objs w)) b k
  | OSet i k _ => match get_obj w i with
                  | Some oi => match o_data oi with Some (b, off) => nocache w (length (w_objs w)) b (off + o_start oi + k) | None => true end
                  | None => true end
  | OAdd i _ => match get_obj w i with
                | Some oi => match o_data oi with
                             | Some (b, off) => forallb (fun k => nocache w i b (off + o_start oi + Z.of_nat k)) (seq 0 (Z.to_nat (o_length oi)))
                             | None => true end
                | None => true end
  | OAssign i _ | OMove i _ => match get_obj w i with Some o => negb (o_valid o) | None => true end
  | _ => true
  end.
Lemma quietb_ok w x : quietb w x = true -> quiet w x.
Proof.
  destruct x; cbn; auto.
  - intros H j o Hc. apply (nocache_ok _ _ _ _ H j o Hc). destruct Hc as [Hg _]. apply get_lt in Hg. lia.
  - intros H o Hg. rewrite Hg in H. destruct (o_valid o); [discriminate|reflexivity].
  - intros H o Hg. rewrite Hg in H. destruct (o_valid o); [discriminate|reflexivity].
  - intros H oi b off Hg Hd j o Hc. rewrite Hg, Hd in H. apply (nocache_ok _ _ _ _ H j o Hc). destruct Hc as [Hgj _]. apply get_lt in Hgj. lia.
  - intros H oi b a Hg (off & Hd & Ha) j' o Hc Hne. rewrite Hg, Hd in H. rewrite forallb_forall in H.
    specialize (H (Z.to_nat (a - (off + o_start oi)))). rewrite in_seq in H. specialize (H ltac:(lia)).
    rewrite Z2Nat.id in H by lia. replace (off + o_start oi + (a - (off + o_start oi))) with a in H by lia.
    apply (nocache_ok _ _ _ _ H j' o Hc Hne).
Qed.
Fixpoint runq (l : list bop) (w : bworld) : option bworld :=
  match l with
  | [] => Some w
  | x :: l' => if legalb w x && quietb w x then match exec x w with (w', r) => if definedb r then runq l' w' else None end else None
  end.
Lemma runq_history l2 : forall l1 w w', history quiet l1 w -> runq l2 w = Some w' -> history quiet (l1 ++ l2) w'.
Proof.
  induction l2 as [|x l2 IH]; intros l1 w w' H E; cbn in E.
  - injection E as <-. rewrite app_nil_r. auto.
  - destruct (legalb w x && quietb w x) eqn:El; [|discriminate]. apply andb_prop in El as [El Eq].
    destruct (exec x w) as [w1 r] eqn:Ex. destruct (definedb r) eqn:Ed; [|discriminate].
    replace (l1 ++ x :: l2) with ((l1 ++ [x]) ++ l2) by (rewrite <- app_assoc; reflexivity). apply (IH _ w1); auto.
    eapply one_more; eauto; [apply legalb_ok; auto|apply quietb_ok; auto|destruct r; easy].
Qed.

(** integers as doubles *)
Definition zb (z : Z) : D B64 := b64_ofZ z.
Definition cells (l : list Z) : list (option (D B64)) := map (fun z => Some (zb z)) l.

Definition show (r : res (out B64)) : option (list (option SpecFloat.spec_float)) :=
  match r with Ret (VArr (Some a)) => Some (map (option_map (B2SF (prec := 53) (emax := 1024))) a) | _ => None end.
Definition shown (l : list Z) := Some (map (fun z => Some (B2SF (b64_ofZ z))) l).

(** a history satisfying the hypotheses: a data set of 6 points, two windows of it, one copied;
    the envelope of a window is taken, then a point outside it is written, an owned series is
    filled by += and its envelope is taken with two bands, with another addition in between *)
Definition calm : list bop :=
  [OBuf (cells [4; 1; 7; 2; 9; 3]); OView (Some (0%nat, 0)) 0 1 5; OView (Some (0%nat, 0)) 0 0 4; OLower 0 1;
   OWrite 0 5 (zb 100); OCopy 0; OOwned 4; OAdd 3 0; OUpper 3 1; OAdd 3 1; OUpper 3 2].
Example C38_case : exists w, history quiet calm w /\
  show (snd (exec (OLower 0 1) w)) = shown [1; 1; 2; 2] /\ show (snd (exec (OUpper 3 1) w)) = shown [8; 9; 11; 11].
Proof.
  assert (H : match runq calm world0 with Some w => (show (snd (exec (OLower 0 1) w)), show (snd (exec (OUpper 3 1) w))) | None => (None, None) end
              = (shown [1; 1; 2; 2], shown [8; 9; 11; 11])) by (vm_compute; reflexivity).
  destruct (runq calm world0) as [w|] eqn:E; [|discriminate H].
  exists w. split; [exact (runq_history calm [] world0 w (no_history _) E)|]. injection H as H1 H2. auto.
Qed.

(** Refutations: after a quiet history, the operation [x] makes an envelope stale: it is
    not the smallest point near position [k] of the current points. *)
Definition stale_after (l : list bop) (x : bop) : Prop :=
  exists w0 w w' r i pts band a k v, history quiet l w0 /\ legal w0 x /\ exec x w0 = (w, Ret r) /\
    points w i pts /\ pts <> [] /\ Forall (fun p => is_nan p = false) pts /\ 0 <= band /\
    exec (OLower i band) w = (w', Ret (VArr (Some a))) /\
    0 <= k < Z.of_nat (length pts) /\ aget a k = Ret (Some v) /\ ~ smallest_near (N := B64) (ts_of_list (N := B64) pts) band k v.

Definition rdall (w : bworld) (i : nat) : option (list (D B64)) :=
  match get_obj w i with
  | Some o => if 0 <? o_length o then match rdpts (w_heap w) (o_data o) (Z.to_nat (o_length o)) (o_start o) with Ret p => Some p | _ => None end else None
  | None => None end.
Lemma rdall_ok w i p : rdall w i = Some p -> points w i p /\ p <> [].
Proof.
  unfold rdall. destruct (get_obj w i) as [o|] eqn:Eo; [|discriminate]. destruct (Z.ltb_spec 0 (o_length o)); [|discriminate].
  destruct (rdpts (w_heap w) (o_data o) (Z.to_nat (o_length o)) (o_start o)) as [q| | |] eqn:E; try discriminate. intros Eq. injection Eq as <-.
  apply rdpts_nth in E as [Hl Hk]. split; [exists o; split; auto; split; [lia|auto]|]. intros ->. cbn in Hl. lia.
Qed.
(** some point near [k] is smaller than what the envelope says *)
Definition stale_check (l : list bop) (x : bop) (i : nat) (band : Z) (k m : nat) : bool :=
  match runq l world0 with
  | Some w0 => legalb w0 x && match exec x w0 with
      | (w, Ret r) => match rdall w i with
          | Some pts => forallb (fun p => negb (is_nan p)) pts && (0 <=? band) && (Z.abs (Z.of_nat m - Z.of_nat k) <=? band) &&
              match exec (OLower i band) w with
              | (w', Ret (VArr (Some a))) =>
                  match nth_error a k, nth_error pts k, nth_error pts m with
                  | Some (Some v), Some _, Some p => @nltb B64 p v | _, _, _ => false end
              | _ => false end
          | None => false end
      | _ => false end
  | None => false
  end.
Lemma stale_check_ok l x i band k m : stale_check l x i band k m = true -> stale_after l x.
Proof.
  unfold stale_check. destruct (runq l world0) as [w0|] eqn:E0; [|discriminate]. destruct (legalb w0 x) eqn:El; [|discriminate]. cbn [andb].
  destruct (exec x w0) as [w [r| | |]] eqn:Ex; try discriminate. destruct (rdall w i) as [pts|] eqn:Ep; [|discriminate].
  destruct (forallb (fun p => negb (is_nan p)) pts) eqn:En; [|discriminate]. destruct (Z.leb_spec 0 band) as [Hb|]; [|discriminate]. cbn [andb].
  destruct (Z.leb_spec (Z.abs (Z.of_nat m - Z.of_nat k)) band) as [Hm|]; [|discriminate]. cbn [andb].
  destruct (exec (OLower i band) w) as [w' [ra| | |]] eqn:Ea; try discriminate. destruct ra as [| | | |[a|]]; try discriminate.
  destruct (nth_error a k) as [[v|]|] eqn:Eak; try discriminate. destruct (nth_error pts k) eqn:Epk; try discriminate.
  destruct (nth_error pts m) as [p|] eqn:Epm; try discriminate. intros Hlt.
  apply rdall_ok in Ep as [Hp Hne]. exists w0, w, w', r, i, pts, band, a, (Z.of_nat k), v. splits; auto.
  - apply (runq_history l [] world0 w0 (no_history _) E0).
  - apply legalb_ok; auto.
  - apply Forall_forall. intros q Hq. rewrite forallb_forall in En. specialize (En q Hq). destruct (is_nan q); easy.
  - lia.
  - apply nth_error_Some_lt in Epk. lia.
  - apply aget_Ret. rewrite Nat2Z.id. split; auto. lia.
  - intros [_ H]. specialize (H (Z.of_nat m)). cbn [ts_length ts_of_list] in H.
    assert (Hlt' : (m < length pts)%nat) by (eapply nth_error_Some_lt; eauto). specialize (H ltac:(lia) Hm).
    assert (Epp : pt (ts_of_list (N := B64) pts) (Z.of_nat m) = p).
    { unfold pt, ts_points, ts_of_list. cbn. rewrite !Nat2Z.id, firstn_all. apply nth_error_nth with (d := n0) in Epm. exact Epm. }
    rewrite Epp in H. destruct H as (_ & _ & H). rewrite Hlt in H. discriminate.
Qed.

Definition one_view : list bop := [OBuf (cells [4; 1; 7; 2; 9; 3]); OView (Some (0%nat, 0)) 0 1 5; OLower 0 1].
(** writing an element through the object itself *)
Theorem C38_element_write_refuted : stale_after one_view (OSet 0 2 (zb (-5))).
Proof. apply (stale_check_ok _ _ 0 1 1 2). vm_compute. reflexivity. Qed.
(** writing into the data the object refers to, as normalising the data set does *)
Theorem C38_dataset_write_refuted : stale_after one_view (OWrite 0 3 (zb (-5))).
Proof. apply (stale_check_ok _ _ 0 1 1 2). vm_compute. reflexivity. Qed.
(** assigning another series *)
Theorem C38_assignment_refuted : stale_after (one_view ++ [OView (Some (0%nat, 0)) 0 0 4]) (OAssign 0 1).
Proof. apply (stale_check_ok _ _ 0 1 2 1). vm_compute. reflexivity. Qed.
Theorem C38_move_assignment_refuted : stale_after (one_view ++ [OView (Some (0%nat, 0)) 0 0 4]) (OMove 0 1).
Proof. apply (stale_check_ok _ _ 0 1 2 1). vm_compute. reflexivity. Qed.
(** adding to another series that shares points *)
Theorem C38_shared_addition_refuted :
  stale_after (one_view ++ [OView (Some (0%nat, 0)) 0 0 2; OOwned 2; OSet 2 1 (zb (-5))]) (OAdd 1 2).
Proof. apply (stale_check_ok _ _ 0 1 1 0). vm_compute. reflexivity. Qed.
Print Assumptions C38_element_write_refuted.
Print Assumptions C38_dataset_write_refuted.
Print Assumptions C38_assignment_refuted.
Print Assumptions C38_move_assignment_refuted.
Print Assumptions C38_shared_addition_refuted.

Lemma upd_split {A} (l : list A) n v : (n < length l)%nat -> upd l n v = firstn n l ++ v :: skipn (S n) l.
Proof. revert n. induction l as [|x l IH]; intros [|n] H; cbn in *; try lia; auto. rewrite IH by lia. reflexivity. Qed.
Lemma B2SF_map_inj (p q : list (D B64)) : map (B2SF (prec := 53) (emax := 1024)) p = map (B2SF (prec := 53) (emax := 1024)) q -> p = q.
Proof.
  revert q. induction p as [|x p IH]; intros [|y q] H; try discriminate; auto. cbn [map] in H.
  pose proof (f_equal (fun l => hd (B2SF x) l) H) as H1. pose proof (f_equal (@tl _) H) as H2. cbn [hd tl] in H1, H2.
  assert (x = y) as -> by exact (B2SF_inj prec64 emax64 x y H1). rewrite (IH q H2). reflexivity.
Qed.

(** ** C39 *)
(** copying: a new object with the same points, and no other object changes.  When the source
    has its own memory, later writes to the copy do not change the source. *)
Theorem C39_copy : forall (l : list bop) (w : bworld) (i : nat) (pts : list (D B64)),
  history any l w -> points w i pts ->
  exists w' n, exec (OCopy i) w = (w', Ret (VId n)) /\ get_obj w n = None /\ points w' n pts /\
    (forall j q, points w j q -> points w' j q) /\
    (forall b, owns w i b -> forall k v w'' r, exec (OSet n k v) w' = (w'', r) -> points w'' i pts).
Proof. intros l w i pts H. apply copy_value. eapply own_history; eauto. Qed.
Print Assumptions C39_copy.

(** assignment.  What is missing compared to the full property: targets of another length when
    the source has its own memory, and sources that use the memory of the target; both refuted
    below. *)
Theorem C39_assign_partial : forall (l : list bop) (w : bworld) (i j : nat) (oi oj : obj B64) (pts : list (D B64)),
  history any l w -> get_obj w i = Some oi -> get_obj w j = Some oj -> i <> j -> points w j pts ->
  (o_owner oj = true -> o_length oi = Z.of_nat (length pts)) ->
  (o_owner oj = false -> apart_from w i j) ->
  exists w', exec (OAssign i j) w = (w', Ret VUnit) /\ points w' i pts /\
    forall m q, m <> i -> apart_from w i m -> points w m q -> points w' m q.
Proof. intros l w i j oi oj pts H Hi Hj Hne Hp H1 H2. eapply assign_value; eauto. eapply own_history; eauto. Qed.
Print Assumptions C39_assign_partial.

Theorem C39_move_partial : forall (l : list bop) (w : bworld) (i j : nat) (oi : obj B64) (pts : list (D B64)),
  history any l w -> get_obj w i = Some oi -> i <> j -> points w j pts -> apart_from w i j ->
  exists w', exec (OMove i j) w = (w', Ret VUnit) /\ points w' i pts /\
    forall m q, m <> i -> m <> j -> apart_from w i m -> points w m q -> points w' m q.
Proof. intros l w i j oi pts H Hi Hne Hp H1. eapply move_value; eauto. eapply own_history; eauto. Qed.
Print Assumptions C39_move_partial.

(** elements *)
Theorem C39_elements : forall (w : bworld) (i : nat) (pts : list (D B64)) (k : Z), points w i pts ->
  (0 <= k < Z.of_nat (length pts) -> exists x, nth_error pts (Z.to_nat k) = Some x /\ exec (OAt i k) w = (w, Ret (VVal x))) /\
  (~ 0 <= k < Z.of_nat (length pts) -> exec (OAt i k) w = (w, Throw (GenexExc "Data point index is out of range"))) /\
  (forall v, 0 <= k < Z.of_nat (length pts) ->
     exists w', exec (OSet i k v) w = (w', Ret VUnit) /\ points w' i (firstn (Z.to_nat k) pts ++ v :: skipn (S (Z.to_nat k)) pts)).
Proof.
  intros w i pts k H. cbn [exec]. rewrite (at_value w i pts k H). splits.
  - intros Hk. destruct (nth_some pts (Z.to_nat k)) as [x Ex]; [lia|]. exists x. split; auto. destruct (Z.ltb_spec k 0); [lia|]. rewrite Ex. reflexivity.
  - intros Hk. destruct (Z.ltb_spec k 0); auto. rewrite (proj2 (nth_error_None _ _)) by lia. reflexivity.
  - intros v Hk. destruct (set_value w i pts k v H Hk) as (w' & E & V). exists w'. split; auto. rewrite <- upd_split by lia. exact V.
Qed.
Print Assumptions C39_elements.

(** addition.  What is missing compared to the full property: a summand that begins before the
    target and reaches into it; refuted below. *)
Theorem C39_add_partial : forall (w : bworld) (i j : nat) (oi oj : obj B64) (xs ys : list (D B64)),
  get_obj w i = Some oi -> get_obj w j = Some oj -> points w i xs -> points w j ys -> length xs = length ys -> no_overrun oi oj ->
  exists w', exec (OAdd i j) w = (w', Ret VUnit) /\ points w' i (map (fun '(x, y) => @nadd B64 x y) (combine xs ys)) /\
    (forall m om q, get_obj w m = Some om -> m <> i -> (forall b a, covers oi b a -> ~ covers om b a) -> points w m q -> points w' m q).
Proof. intros w i j oi oj xs ys. apply add_value. Qed.
Print Assumptions C39_add_partial.

Theorem C39_add_needs_equal_lengths : forall (w : bworld) (i j : nat) (xs ys : list (D B64)),
  points w i xs -> points w j ys -> length xs <> length ys ->
  exec (OAdd i j) w = (w, Throw (GenexExc "Two time series must have the same length for addition")).
Proof.
  intros w i j xs ys (oi & Hi & Lx & _) (oj & Hj & Ly & _) Hne. eapply add_throws; eauto. lia.
Qed.
Print Assumptions C39_add_needs_equal_lengths.

(** equality.  What is missing compared to the full property: series that share the data pointer
    (refuted below) and null data (PropsEqual.v). *)
Definition near (x y : D B64) : Prop := @nltb B64 neps (nabs (@nsub B64 x y)) = false.
Theorem C39_equal_partial : forall (w : bworld) (i j : nat) (oi oj : obj B64) (xs ys : list (D B64)),
  get_obj w i = Some oi -> get_obj w j = Some oj -> points w i xs -> points w j ys ->
  o_data oi <> o_data oj -> o_data oi <> None -> o_data oj <> None ->
  exists b, exec (OEq i j) w = (w, Ret (VBool b)) /\ (b = true <-> Forall2 near xs ys).
Proof.
  intros w i j oi oj xs ys Hi Hj Vi Vj H1 H2 H3. destruct (eq_value w i j oi oj xs ys Hi Hj Vi Vj H1 H2 H3) as (b & E & Hb).
  exists b. split; auto. rewrite Hb. clear. split.
  - revert ys. induction xs as [|x xs IH]; intros [|y ys] [Hl H]; try discriminate; constructor.
    + exact (H O x y eq_refl eq_refl).
    + apply IH. split; [injection Hl; auto|]. intros k a b Ha Hb. exact (H (S k) a b Ha Hb).
  - intros H. split; [clear - H; induction H; cbn; auto|]. induction H as [|x y xs ys Hxy H IH]; intros [|k] a b Ha Hb; try discriminate.
    + cbn in *. injection Ha as <-. injection Hb as <-. exact Hxy.
    + eapply IH; eauto.
Qed.
Print Assumptions C39_equal_partial.

(** the average is never defined: it adds to a variable without a value *)
Theorem C39_average_refuted : forall (w : bworld) (i : nat) (pts : list (D B64)), points w i pts -> exec (OAverage i) w = (w, UB Uninit).
Proof. intros w i pts. apply average_ub. Qed.
Print Assumptions C39_average_refuted.

(** ** Refutations of C39 *)
Definition ran (l : list bop) : option bworld := run l world0.
Definition outcome (r : res (out B64)) : res nat :=
  match r with Ret (VBool true) => Ret 1%nat | Ret (VBool false) => Ret 0%nat | Ret _ => Ret 2%nat | Throw e => Throw e | UB u => UB u | Hang => Hang end.

(** points of an object, as shown *)
Definition see (w : bworld) (i : nat) : list SpecFloat.spec_float := match rdall w i with Some p => map (B2SF (prec := 53) (emax := 1024)) p | None => [] end.
Definition seen (l : list Z) : list SpecFloat.spec_float := map (B2SF (prec := 53) (emax := 1024)) (map zb l).
Lemma see_ok w i l : see w i = seen l -> l <> [] -> points w i (map zb l).
Proof.
  unfold see. destruct (rdall w i) as [p|] eqn:E.
  - intros H _. apply B2SF_map_inj in H. apply rdall_ok in E as [E _]. rewrite <- H. exact E.
  - destruct l; [contradiction|discriminate].
Qed.

Lemma both {A B} (a c : A) (b d : B) : (a, b) = (c, d) -> a = c /\ b = d.
Proof. intros H. split; [exact (f_equal fst H)|exact (f_equal snd H)]. Qed.

(** Assigning a series of 3 points to one of 2 points, both with their own memory: reading the third
    point is undefined. *)
Definition grow : list bop := [OOwned 2; OOwned 3; OAssign 0 1].
Theorem C39_assign_lengths_refuted : exists w, history any grow w /\ points w 1 (map zb [0; 0; 0]) /\
  snd (exec (OAt 0 2) w) = UB OutOfBounds.
Proof.
  assert (H : match ran grow with Some w => (see w 1, outcome (snd (exec (OAt 0 2) w))) | None => ([], Hang) end = (seen [0; 0; 0], UB OutOfBounds))
    by (vm_compute; reflexivity).
  unfold ran in H. destruct (run grow world0) as [w|] eqn:E; [|discriminate H]. apply both in H as [H1 H2].
  exists w. splits.
  - exact (run_history grow [] world0 w (no_history _) E).
  - apply (see_ok w 1 [0; 0; 0] H1). discriminate.
  - destruct (snd (exec (OAt 0 2) w)) as [[| | |[]|]|e|u|]; cbn in H2; congruence.
Qed.
Print Assumptions C39_assign_lengths_refuted.

(** assigning a series with its own memory to itself: its points are lost *)
Definition self : list bop := [OOwned 2; OSet 0 0 (zb 5)].
Theorem C39_self_assign_refuted : exists w w', history any self w /\ points w 0 (map zb [5; 0]) /\
  exec (OAssign 0 0) w = (w', Ret VUnit) /\ snd (exec (OAt 0 0) w') = UB Uninit.
Proof.
  assert (H : match ran self with Some w => (see w 0, outcome (snd (exec (OAssign 0 0) w)), outcome (snd (exec (OAt 0 0) (fst (exec (OAssign 0 0) w)))))
                | None => ([], Hang, Hang) end = (seen [5; 0], Ret 2%nat, UB Uninit)) by (vm_compute; reflexivity).
  unfold ran in H. destruct (run self world0) as [w|] eqn:E; [|discriminate H]. apply both in H as [H H3]. apply both in H as [H1 H2].
  destruct (exec (OAssign 0 0) w) as [w' r] eqn:Ea. exists w, w'. splits.
  - exact (run_history self [] world0 w (no_history _) E).
  - apply (see_ok w 0 [5; 0] H1). discriminate.
  - rewrite Ea. f_equal. cbn [snd] in H2. assert (Hr : r = Ret VUnit \/ r <> Ret VUnit) by (destruct r as [[]| | |]; auto; right; discriminate).
    destruct Hr as [Hr|Hr]; auto. exfalso. clear - Ea Hr H2. cbn [exec] in Ea. unfold ts_assign in Ea.
    destruct (get_obj w 0) as [o|]; [|injection Ea as <- <-; discriminate H2].
    destruct (if o_owner o then del_block (w_heap w) (o_data o) else Ret (w_heap w)); try (injection Ea as <- <-; discriminate H2).
    destruct (o_owner o); [|injection Ea as <- <-; apply Hr; reflexivity]. destruct (o_length o <? 0); [injection Ea as <- <-; discriminate H2|].
    cbn in Ea. injection Ea as <- <-. apply Hr. reflexivity.
  - cbn [fst] in H3. destruct (snd (exec (OAt 0 0) w')) as [[| | |[]|]|e|u|]; cbn in H3; congruence.
Qed.
Print Assumptions C39_self_assign_refuted.

(** assigning a window of the target's own memory: the memory is freed *)
Definition own_window : list bop := [OOwned 3; OView (Some (0%nat, 0)) 0 1 3].
Theorem C39_assign_window_refuted : exists w, history any own_window w /\ points w 1 (map zb [0; 0]) /\
  snd (exec (OAt 0 0) (fst (exec (OAssign 0 1) w))) = UB UseAfterFree.
Proof.
  assert (H : match ran own_window with Some w => (see w 1, outcome (snd (exec (OAt 0 0) (fst (exec (OAssign 0 1) w)))))
                | None => ([], Hang) end = (seen [0; 0], UB UseAfterFree)) by (vm_compute; reflexivity).
  unfold ran in H. destruct (run own_window world0) as [w|] eqn:E; [|discriminate H]. apply both in H as [H1 H2]. exists w. splits.
  - exact (run_history own_window [] world0 w (no_history _) E).
  - apply (see_ok w 1 [0; 0] H1). discriminate.
  - destruct (snd (exec (OAt 0 0) (fst (exec (OAssign 0 1) w)))) as [[| | |[]|]|e|u|]; cbn in H2; congruence.
Qed.
Print Assumptions C39_assign_window_refuted.

(** adding a series that begins before the target and reaches into it: the sums run on *)
Definition shifted : list bop := [OBuf (cells [1; 10; 100]); OView (Some (0%nat, 0)) 0 1 3; OView (Some (0%nat, 0)) 0 0 2].
Theorem C39_overlapping_add_refuted : exists w, history any shifted w /\ points w 0 (map zb [10; 100]) /\ points w 1 (map zb [1; 10]) /\
  points (fst (exec (OAdd 0 1) w)) 0 (map zb [11; 111]) /\
  map (fun '(x, y) => @nadd B64 x y) (combine (map zb [10; 100]) (map zb [1; 10])) <> map zb [11; 111].
Proof.
  assert (H : match ran shifted with Some w => (see w 0, see w 1, see (fst (exec (OAdd 0 1) w)) 0) | None => ([], [], []) end
              = (seen [10; 100], seen [1; 10], seen [11; 111])) by (vm_compute; reflexivity).
  unfold ran in H. destruct (run shifted world0) as [w|] eqn:E; [|discriminate H]. apply both in H as [H H3]. apply both in H as [H1 H2]. exists w. splits.
  - exact (run_history shifted [] world0 w (no_history _) E).
  - apply (see_ok w 0 [10; 100] H1). discriminate.
  - apply (see_ok w 1 [1; 10] H2). discriminate.
  - apply (see_ok _ 0 [11; 111] H3). discriminate.
  - intros Hf. apply (f_equal (map (B2SF (prec := 53) (emax := 1024)))) in Hf. vm_compute in Hf. discriminate Hf.
Qed.
Print Assumptions C39_overlapping_add_refuted.

(** two different windows of a data set row count as equal *)
Definition windows : list bop := [OBuf (cells [1; 10; 100]); OView (Some (0%nat, 0)) 0 0 1; OView (Some (0%nat, 0)) 0 1 3].
Theorem C39_equal_windows_refuted : exists w, history any windows w /\ points w 0 (map zb [1]) /\ points w 1 (map zb [10; 100]) /\
  snd (exec (OEq 0 1) w) = Ret (VBool true).
Proof.
  assert (H : match ran windows with Some w => (see w 0, see w 1, outcome (snd (exec (OEq 0 1) w))) | None => ([], [], Hang) end
              = (seen [1], seen [10; 100], Ret 1%nat)) by (vm_compute; reflexivity).
  unfold ran in H. destruct (run windows world0) as [w|] eqn:E; [|discriminate H]. apply both in H as [H H3]. apply both in H as [H1 H2]. exists w. splits.
  - exact (run_history windows [] world0 w (no_history _) E).
  - apply (see_ok w 0 [1] H1). discriminate.
  - apply (see_ok w 1 [10; 100] H2). discriminate.
  - destruct (snd (exec (OEq 0 1) w)) as [[| | |[]|]|e|u|]; cbn in H3; congruence.
Qed.
Print Assumptions C39_equal_windows_refuted.

(** a history that meets the hypotheses of the positive theorems *)
Definition mixed : list bop := [OBuf (cells [1; 10; 100; 5]); OView (Some (0%nat, 0)) 0 1 3; OOwned 2; OAdd 1 0; OCopy 1; OOwned 2].
Example C39_case : exists w o0 o1 o3, history any mixed w /\ get_obj w 0 = Some o0 /\ get_obj w 1 = Some o1 /\ get_obj w 3 = Some o3 /\
  points w 0 (map zb [10; 100]) /\ points w 1 (map zb [10; 100]) /\ points w 2 (map zb [10; 100]) /\ points w 3 (map zb [0; 0]) /\
  o_owner o1 = true /\ o_owner o0 = false /\ o_length o3 = 2 /\ o_data o0 <> o_data o1 /\ no_overrun o1 o0 /\ apart_from w 3 0.
Proof.
  assert (H : match ran mixed with Some w => (see w 0, see w 1, see w 2, see w 3, map (option_map (fun o => (o_owner o, o_length o, o_data o))) (w_objs w)) | None => ([], [], [], [], []) end
              = (seen [10; 100], seen [10; 100], seen [10; 100], seen [0; 0],
                 [Some (false, 2, Some (0%nat, 0)); Some (true, 2, Some (1%nat, 0)); Some (true, 2, Some (2%nat, 0)); Some (true, 2, Some (3%nat, 0))])) by (vm_compute; reflexivity).
  unfold ran in H. destruct (run mixed world0) as [w|] eqn:E; [|discriminate H]. apply both in H as [H Ho]. apply both in H as [H H3]. apply both in H as [H H2]. apply both in H as [H0 H1].
  destruct w as [h os]. cbn [w_objs] in Ho.
  destruct os as [|[o0|] [|[o1|] [|[o2|] [|[o3|] [|]]]]]; try discriminate Ho. cbn in Ho.
  pose proof (f_equal (fun l => nth 0 l None) Ho) as A0. pose proof (f_equal (fun l => nth 1 l None) Ho) as A1. pose proof (f_equal (fun l => nth 3 l None) Ho) as A3.
  cbn in A0, A1, A3. injection A0 as A01 A02 A03. injection A1 as A11 A12 A13. injection A3 as A31 A32 A33.
  exists (mkWorld h [Some o0; Some o1; Some o2; Some o3]), o0, o1, o3.
  splits; try reflexivity; try assumption; try (eapply see_ok; [eassumption|discriminate]).
  - exact (run_history mixed [] world0 _ (no_history _) E).
  - rewrite A03, A13. discriminate.
  - intros b off off' E1 E2. rewrite A13 in E1. rewrite A03 in E2. congruence.
  - intros b (o & off & Hg & _ & Hd) (o' & off' & Hg' & Hd'). cbn in Hg, Hg'. injection Hg as <-. injection Hg' as <-. congruence.
Qed.

(** ** C44 *)
(** Releasing is safe: after any history, destroying an object, or giving it a new value, frees no memory
    twice and no memory it does not own, and leaves alone every object that does not use that memory. *)
Theorem C44_destroy : forall (l : list bop) (w : bworld) (i : nat) (o : obj B64), history any l w -> get_obj w i = Some o ->
  exists w', exec (ODestroy i) w = (w', Ret VUnit) /\ get_obj w' i = None /\
    (forall b, allocated w b -> ~ owns w i b -> allocated w' b) /\
    (forall b, owns w i b -> ~ allocated w' b) /\
    (forall m q, m <> i -> apart_from w i m -> points w m q -> points w' m q) /\
    (forall m q b, m <> i -> owns w m b -> points w m q -> points w' m q).
Proof.
  intros l w i o H Hg. assert (O : own w) by (eapply own_history; eauto). destruct (destroy_value w i o O Hg) as (w' & E & H1 & H2 & H3 & H4 & H5).
  exists w'. splits; auto.
Qed.
Print Assumptions C44_destroy.

(** No history frees twice: the only operations that can hit freed memory are those that read or write points. *)
Theorem C44_no_double_free : forall (l : list bop) (w : bworld) (i j : nat) (oi oj : obj B64), history any l w ->
  get_obj w i = Some oi -> get_obj w j = Some oj ->
  (exists w', exec (OMove i j) w = (w', Ret VUnit)) /\
  (o_owner oj = false -> exists w', exec (OAssign i j) w = (w', Ret VUnit)).
Proof.
  intros l w i j oi oj H Hi Hj. assert (O : own w) by (eapply own_history; eauto). split.
  - apply (move_ok w i j oi oj O Hi Hj).
  - apply (assign_view_ok w i j oi oj O Hi Hj).
Qed.
Print Assumptions C44_no_double_free.

(** Nothing leaks: memory in use is the program's own, or owned by exactly one object. *)
Theorem C44_no_leak : forall (l : list bop) (w : bworld) (b : nat), history any l w -> allocated w b ->
  program_block any l b \/ exists i, owns w i b /\ forall j, owns w j b -> j = i.
Proof.
  intros l w b H Ha. destruct (no_leak any l w b H Ha) as [Hp|[i Hi]]; auto. right. exists i. split; auto. intros j Hj.
  assert (O : own w) by (eapply own_history; eauto). destruct Hi as (o & off & Hg & Ho & Hd). destruct (O i o Hg Ho) as (_ & _ & H3).
  destruct (H3 b off Hd) as (_ & _ & Hu). auto.
Qed.
Print Assumptions C44_no_leak.

Example C44_case : exists w, history any mixed w /\ allocated w 2 /\ owns w 2 2 /\ allocated w 0 /\ program_block any mixed 0.
Proof.
  assert (H : match ran mixed with Some w => (map (fun b => match b with Some _ => true | None => false end) (w_heap w), map (option_map (fun o => (o_owner o, o_data o))) (w_objs w)) | None => ([], []) end
              = ([true; true; true; true], [Some (false, Some (0%nat, 0)); Some (true, Some (1%nat, 0)); Some (true, Some (2%nat, 0)); Some (true, Some (3%nat, 0))])) by (vm_compute; reflexivity).
  unfold ran in H. destruct (run mixed world0) as [w|] eqn:E; [|discriminate H]. apply both in H as [Hh Ho].
  destruct w as [h os]. cbn [w_objs w_heap] in Ho, Hh.
  destruct os as [|[o0|] [|[o1|] [|[o2|] [|[o3|] [|]]]]]; try discriminate Ho. cbn in Ho.
  pose proof (f_equal (fun l => nth 2 l None) Ho) as A2. cbn in A2. injection A2 as A21 A22.
  destruct h as [|[h0|] [|[h1|] [|[h2|] [|[h3|] [|]]]]]; try discriminate Hh.
  eexists. splits; [exact (run_history mixed [] world0 _ (no_history _) E)| | | |].
  - exists h2. reflexivity.
  - exists o2, 0. auto.
  - exists h0. reflexivity.
  - exists [], (cells [1; 10; 100; 5]), (tl mixed), world0. splits; auto. constructor.
Qed.

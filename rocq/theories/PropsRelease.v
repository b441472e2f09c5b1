(** Property C60: the objects behind the data sets are released when, and only when,
    the data sets are unloaded. *)
From Coq Require Import String Ascii.
From Verif Require Import Base Num NumB64 LoopFacts TimeSeries Distance TSSet StdAlg Candidate Group GroupSpace Loader Archive OldFormat BruteForce PAA PAAProofs
  DataSpec DataProofs LoaderSpec LoaderProofs Api ApiSpec ApiProofs HeapFacts PropsLoader PropsApi.
Local Open Scope Z_scope.
Local Open Scope list_scope.

(** ** specification *)
(** object [id] has been made and not yet deleted *)
Definition alive {N : Num} (s : api N) (id : nat) : Prop := exists g, nth_error (a_objs s) id = Some (Some g).
(** it has been deleted *)
Definition deleted {N : Num} (s : api N) (id : nat) : Prop := nth_error (a_objs s) id = Some None.

(** ** loading raises no exception but the library's own *)
Section Loading.
Context {N : Num}.
Variable stod : string -> parsed (D N).

Lemma imul_throw a b x : imul a b <> Throw x.
Proof. unfold imul, icheck. destruct (_ && _); discriminate. Qed.

Lemma less_throw a b h x : less a b h <> Throw x.
Proof. unfold less, isub, icheck. destruct (_ && _); cbn [bind]; [destruct (_ && _); discriminate|discriminate]. Qed.

Lemma cell_throw row sc rmc hn col x : cell_index row sc rmc hn col <> Throw x.
Proof.
  unfold cell_index. destruct (less rmc sc hn) eqn:E1; cbn [bind]; try discriminate; [|intros [= ->]; exact (less_throw _ _ _ _ E1)].
  destruct (imul row a) eqn:E2; cbn [bind]; try discriminate; [|intros [= ->]; exact (imul_throw _ _ _ E2)].
  destruct (less col sc hn) eqn:E3; cbn [bind]; try discriminate; [|intros [= ->]; exact (less_throw _ _ _ _ E3)].
  unfold iadd, icheck. destruct (_ && _); discriminate.
Qed.

Lemma aset_throw {A} (l : list A) i v x : aset l i v <> Throw x.
Proof. unfold aset. destruct (_ && _); discriminate. Qed.

Lemma tokens_throw row sc rmc hn : forall toks col names (buf : list (D N)) x,
  load_tokens stod row sc rmc hn col toks names buf = Throw x -> exists m, x = GenexExc m.
Proof.
  induction toks as [|t toks IH]; intros col names buf x E; cbn [load_tokens] in E; [discriminate|].
  destruct (sc <=? col); [|eauto]. destruct (_ && _); [eauto|].
  destruct (cell_index _ _ _ _ _) as [pos|y| |] eqn:Ec; cbn [bind] in E; try discriminate; [|exfalso; exact (cell_throw _ _ _ _ _ _ Ec)].
  destruct (stod t) as [v| |].
  - destruct (aset _ _ v) as [buf'|y| |] eqn:Ea; cbn [bind] in E; try discriminate; [eauto|]. exfalso. exact (aset_throw _ _ _ _ Ea).
  - injection E as <-. eexists. reflexivity.
  - injection E as <-. eexists. reflexivity.
Qed.

Lemma rows_throw seps sc rmc hn : forall n row ls lengths names (buf : list (D N)) l x,
  load_rows stod seps sc rmc hn n row ls lengths names buf = (l, Throw x) -> exists m, x = GenexExc m.
Proof.
  induction n as [|n IH]; intros row ls lengths names buf l x E; cbn [load_rows] in E; [discriminate|].
  destruct ls as [|line ls]; [discriminate|].
  destruct (load_tokens _ _ _ _ _ _ _ _ _) as [[names' buf']|y| |] eqn:Et; try discriminate; [eauto|].
  injection E as _ <-. exact (tokens_throw _ _ _ _ _ _ _ _ _ Et).
Qed.

Lemma load_throw fs (d d' : dataset N) path mr sc seps hn x :
  loadData stod fs d path mr sc seps hn = (d', Throw x) -> exists m, x = GenexExc m.
Proof.
  unfold loadData. destruct (fs path) as [f|]; [|intros E; injection E as _ <-; eauto]. cbv zeta.
  destruct (imul _ _) as [size|y| |] eqn:Ei; try discriminate; [|exfalso; exact (imul_throw _ _ _ Ei)].
  destruct (load_rows _ _ _ _ _ _ _ _ _ _ _) as [lengths [[[count names] buf]|y| |]] eqn:Er; try discriminate.
  - destruct (match tf_fail f with None => false | Some n => _ end); [intros E; injection E as _ <-; eauto|].
    destruct (less _ _ _) as [w|y| |] eqn:El; try discriminate. exfalso. exact (less_throw _ _ _ _ El).
  - intros E. injection E as _ <-. exact (rows_throw _ _ _ _ _ _ _ _ _ _ _ _ Er).
Qed.
End Loading.

(** ** who owns an object *)
Section Owned.
Context {N : Num}.
Implicit Types s : api N.

Definition owned s : Prop := forall id, alive s id -> exists n, In (n, id) (a_sets s).

Lemma keys_apart {A} (l : list (string * A)) n a b : NoDup (map fst l) -> In (n, a) l -> In (n, b) l -> a = b.
Proof.
  induction l as [|[m c] l IH]; intros Hn Ha Hb; [destruct Ha|]. cbn in Hn. inversion Hn as [|? ? H1 H2]; subst.
  assert (Hk : forall x, In (n, x) l -> In n (map fst l)) by (intros x Hx; apply in_map_iff; exists (n, x); auto).
  destruct Ha as [[= -> ->]|Ha], Hb as [[= Hx]|Hb]; auto; try congruence; exfalso; apply H1; eauto; subst; eauto.
Qed.

Lemma put_here {A} n (v : A) l : In (n, v) (map_put n v l).
Proof. induction l as [|[m w] l IH]; cbn; [auto|]. destruct (String.compare n m); cbn; auto. Qed.

Lemma put_in {A} n (v : A) l m w : In (m, w) l -> m <> n -> In (m, w) (map_put n v l).
Proof.
  intros Hi Hn. induction l as [|[k x] l IH]; [destruct Hi|]. cbn.
  destruct (String.compare n k) eqn:Ec; cbn; auto.
  - apply String.compare_eq_iff in Ec. subst k. destruct Hi as [[= -> ->]|Hi]; [contradiction|auto].
  - destruct Hi as [Hi|Hi]; auto.
Qed.

Lemma assoc_in_none {A} n (l : list (string * A)) : assoc n l = None -> ~ In n (map fst l).
Proof. apply assoc_none. Qed.

Lemma erase_in {A} n (l : list (string * A)) m w : In (m, w) l -> m <> n -> In (m, w) (map_erase n l).
Proof. intros Hi Hn. apply in_erase. auto. Qed.

Lemma upd_get {A} (l : list A) id v k x : nth_error (upd l id v) k = Some x -> (k = id /\ x = v) \/ (k <> id /\ nth_error l k = Some x).
Proof.
  intros E. destruct (Nat.eq_dec k id) as [->|Hn].
  - left. split; [reflexivity|]. assert (Hl : (id < length l)%nat).
    { assert (nth_error (upd l id v) id <> None) as Hx by congruence. apply nth_error_Some in Hx. rewrite upd_length in Hx. exact Hx. }
    rewrite nth_error_upd_same in E by exact Hl. congruence.
  - right. split; [exact Hn|]. rewrite nth_error_upd_neq in E by exact Hn. exact E.
Qed.

Lemma fold_upd (l : list (string * nat)) : forall (objs : list (option (gset N))) k x,
  nth_error (fold_left (fun objs p => upd objs (snd p) None) l objs) k = Some x ->
  x = None \/ (nth_error objs k = Some x /\ forall n, ~ In (n, k) l).
Proof.
  induction l as [|[n id] l IH]; intros objs k x E; cbn [fold_left snd] in E; [right; split; [exact E|intros n []]|].
  destruct (IH _ _ _ E) as [->|[H1 H2]]; [left; reflexivity|].
  destruct (upd_get _ _ _ _ _ H1) as [[-> ->]|[Hn H3]]; [left; reflexivity|]. right. split; [exact H3|].
  intros m [[= _ X]|X]; [congruence|exact (H2 m X)].
Qed.

Lemma fold_upd_none (l : list (string * nat)) : forall (objs : list (option (gset N))) k, nth_error objs k = Some None ->
  nth_error (fold_left (fun objs p => upd objs (snd p) None) l objs) k = Some None.
Proof.
  induction l as [|[n id] l IH]; intros objs k E; cbn [fold_left snd]; [exact E|]. apply IH.
  destruct (Nat.eq_dec k id) as [->|Hn].
  - apply nth_error_upd_same. apply nth_error_Some. congruence.
  - rewrite nth_error_upd_neq by exact Hn. exact E.
Qed.

(** what a call on one data set does to the objects *)
Lemma on_set_objs s n f s' r : good s -> on_set s n f = (s', r) ->
  s' = s \/ exists id g, In (n, id) (a_sets s) /\ alive s id /\ s' = put_obj s id (Some g).
Proof.
  intros G E. unfold on_set in E.
  destruct (find_alive s n G) as [(id & g & Ha & Hi & Hg & Hf & Hd & _ & Hh)|(Ha & Hf & _ & Hh)]; rewrite Hf in E.
  - right. rewrite Hd in E. destruct (f g) as [g' r']. injection E as <- _. exists id, g'. split; [exact Hi|]. split; [exists g; exact Hg|reflexivity].
  - left. congruence.
Qed.

Definition kept s s' : Prop := (owned s -> owned s') /\ forall id, deleted s id -> deleted s' id.

Lemma kept_same s s' : a_sets s' = a_sets s -> a_objs s' = a_objs s -> kept s s'.
Proof. intros E1 E2. unfold kept, owned, alive, deleted. rewrite E1, E2. auto. Qed.

Lemma kept_put s id g : alive s id -> kept s (put_obj s id (Some g)).
Proof.
  intros [g0 Ha]. split.
  - intros Ho k [g' Hk]. cbn in *. destruct (upd_get _ _ _ _ _ Hk) as [[-> _]|[_ Hk']]; apply Ho; [exists g0; exact Ha|exists g'; exact Hk'].
  - intros k Hk. unfold deleted in *. cbn. rewrite nth_error_upd_neq; [exact Hk|]. intros ->. congruence.
Qed.

Lemma step_objs e c s s' r : good s -> exec e c s = (s', r) -> ends r -> kept s s'.
Proof.
  intros G E Hr.
  assert (Same : s' = s -> kept s s') by (intros ->; apply kept_same; reflexivity).
  assert (Set_ : forall n f, on_set s n f = (s', r) -> kept s s').
  { intros n f Eo. destruct (on_set_objs s n f s' r G Eo) as [->|(id & g & _ & Ha & ->)]; [apply kept_same; reflexivity|apply kept_put; exact Ha]. }
  destruct c; try (cbn [exec] in E; unfold pure in E; injection E as <- <-; auto; fail);
    try (cbn [exec] in E; eapply Set_; exact E; fail);
    try (cbn [exec] in E; destruct (query_spec _ _ _ _ _ _ G E) as [->|(q & _ & Eo)]; [auto|eapply Set_; exact Eo]; fail).
  - cbn [exec] in E.
    destruct (find_alive s name G) as [(id & g & Ha & _)|(Ha & _)]; rewrite Ha in E; [apply Same; congruence|].
    destruct (loadData _ _ _ _ _ _ _ _) as [d o] eqn:El. destruct o as [[]|x| |]; cbv zeta in E.
    + unfold pure in E. injection E as <- _. split.
      * intros Ho k [g Hk]. cbn in *. destruct (Nat.lt_ge_cases k (length (a_objs s))) as [Hl|Hl].
        -- rewrite nth_error_app1 in Hk by exact Hl. destruct (Ho k (ex_intro _ g Hk)) as [m Hm]. exists m.
           apply put_in; [exact Hm|]. intros ->. apply (assoc_in_none _ _ Ha). apply in_map_iff. exists (name, k). auto.
        -- exists name. rewrite nth_error_app2 in Hk by exact Hl.
           assert (k = length (a_objs s)) as ->; [|apply put_here].
           destruct (k - length (a_objs s))%nat as [|j] eqn:Ej; [lia|]. destruct j; discriminate Hk.
      * intros k Hk. unfold deleted in *. cbn. rewrite nth_error_app1; [exact Hk|]. apply nth_error_Some. congruence.
    + assert (Hadd : forall o, (o = None) -> kept s (mkApi (a_sets s) (a_objs s ++ [o]) (a_paa s) (a_count s) (a_ratio s))).
      { intros o ->. split.
        - intros Ho k [g Hk]. cbn in *. apply Ho. exists g. destruct (Nat.lt_ge_cases k (length (a_objs s))) as [Hl|Hl].
          + rewrite nth_error_app1 in Hk by exact Hl. exact Hk.
          + rewrite nth_error_app2 in Hk by exact Hl. destruct (k - length (a_objs s))%nat as [|j]; [discriminate Hk|destruct j; discriminate Hk].
        - intros k Hk. unfold deleted in *. cbn. rewrite nth_error_app1; [exact Hk|]. apply nth_error_Some. congruence. }
      destruct (load_throw _ _ _ _ _ _ _ _ _ _ El) as [m ->]. injection E as <- _. apply Hadd. reflexivity.
    + injection E as <- <-. destruct Hr.
    + injection E as <- <-. destruct Hr.
  - cbn [exec] in E.
    destruct (find_alive s name G) as [(id & g & Ha & Hi & Hg & Hf & Hd & _ & Hh)|(Ha & Hf & _ & Hh)]; rewrite Hf in E; [|apply Same; congruence].
    rewrite Hd in E. injection E as <- _. split.
    + intros Ho k [g' Hk]. cbn in *. destruct (upd_get _ _ _ _ _ Hk) as [[_ X]|[Hne Hk']]; [discriminate X|].
      destruct (Ho k (ex_intro _ g' Hk')) as [m Hm]. exists m. apply erase_in; [exact Hm|]. intros ->. apply Hne.
      pose proof (good_nodup s G) as Hnd. exact (keys_apart _ _ _ _ Hnd Hm Hi).
    + intros k Hk. unfold deleted in *. cbn. rewrite nth_error_upd_neq; [exact Hk|]. intros ->. congruence.
  - cbn [exec] in E. injection E as <- _. split.
    + intros Ho k [g Hk]. cbn in *. destruct (fold_upd _ _ _ _ Hk) as [X|[Hk' Hno]]; [discriminate X|].
      destruct (Ho k (ex_intro _ g Hk')) as [m Hm]. destruct (Hno m Hm).
    + intros k Hk. unfold deleted in *. cbn. apply fold_upd_none. exact Hk.
  - cbn [exec] in E. injection E as <- _. apply kept_same; reflexivity.
  - destruct (prepare_spec e s _ _ s' r G E) as (_ & _ & Hs & _). apply kept_same; [exact Hs|].
    cbn [exec] in E. destruct (find_id s name) as [id|x| |]; try (injection E as <- _; reflexivity).
    destruct (match assoc name (a_paa s) with Some w => _ | None => _ end) as [w| | |] in E; try (injection E as <- <-; reflexivity).
    destruct (wrapper_generate s w blockSize) as [w' r']. injection E as <- _. reflexivity.
Qed.

Lemma run_owned r0 h s : run r0 h s -> owned s.
Proof.
  induction 1 as [|h s e c s' r Hrun IH E Hr].
  - intros id [g Hg]. destruct id; discriminate Hg.
  - exact (proj1 (step_objs e c s s' r (run_good _ _ _ Hrun) E Hr) IH).
Qed.
End Owned.

(** After any history of calls there are exactly as many objects as names in use, each
    name holding one of its own; what is alive belongs to a name in use. *)
Theorem C60_alive_while_in_use : forall (N : Num) (r0 : D N) h (s : api N), run r0 h s ->
  exists sets : list (string * nat), NoDup (map fst sets) /\ NoDup (map snd sets) /\
    (forall n, In n (map fst sets) <-> in_use h n = true) /\
    (forall id, alive s id <-> In id (map snd sets)) /\
    forall n id, In (n, id) sets -> exists g, nth_error (a_objs s) id = Some (Some g) /\ held s n = Some g.
Proof.
  intros N r0 h s Hrun. pose proof (run_good _ _ _ Hrun) as G. exists (a_sets s).
  pose proof (good_nodup s G) as Hnd. unfold keys in Hnd.
  split; [exact Hnd|]. split; [|split; [|split]].
  - pose proof (g_apart s G) as Hap. clear -Hnd Hap. induction (a_sets s) as [|[n id] l IH]; [constructor|]. cbn in *. inversion Hnd as [|? ? H1 H2]; subst.
    constructor; [|apply IH; auto; intros; eapply Hap; eauto].
    intros X. apply in_map_iff in X as ([m id'] & Ex & X). cbn in Ex. subst id'. apply H1.
    rewrite (Hap n m id); auto. apply in_map_iff. exists (m, id). auto.
  - intros n. rewrite (run_in_use r0 h s Hrun n). symmetry. apply (held_name s n G).
  - intros id. split.
    + intros Ha. destruct (run_owned r0 h s Hrun id Ha) as [n Hn]. apply in_map_iff. exists (n, id). auto.
    + intros Hi. apply in_map_iff in Hi as ([n id'] & <- & Hi). destruct (g_alive s G n id' Hi) as [g Hg]. exists g. exact Hg.
  - intros n id Hi. destruct (find_alive s n G) as [(id' & g & Ha & Hi' & Hg & _ & _ & _ & Hh)|(Ha & _ & _ & _)].
    + assert (id' = id) as -> by exact (keys_apart _ _ _ _ Hnd Hi' Hi). exists g. auto.
    + exfalso. apply (assoc_in_none _ _ Ha). apply in_map_iff. exists (n, id). auto.
Qed.
Print Assumptions C60_alive_while_in_use.

(** A deleted object stays deleted: its place is not used again. *)
Theorem C60_deleted_for_good : forall (N : Num) (r0 : D N) h (s : api N) e c s' r id, run r0 h s ->
  exec e c s = (s', r) -> ends r -> deleted s id -> deleted s' id.
Proof. intros N r0 h s e c s' r id Hrun E Hr. exact (proj2 (step_objs e c s s' r (run_good _ _ _ Hrun) E Hr) id). Qed.
Print Assumptions C60_deleted_for_good.

(** After everything is unloaded no object is left. *)
Theorem C60_nothing_left : forall (N : Num) (r0 : D N) h (s : api N), run r0 h s ->
  (forall n, in_use h n = false) -> forall id, ~ alive s id.
Proof.
  intros N r0 h s Hrun Hno id Ha. destruct (C60_alive_while_in_use N r0 h s Hrun) as (sets & _ & _ & Hu & Hal & _).
  apply Hal in Ha. apply in_map_iff in Ha as ([n id'] & _ & Ha).
  assert (X : in_use h n = true) by (apply Hu; apply in_map_iff; exists (n, id'); auto). rewrite Hno in X. discriminate.
Qed.
Print Assumptions C60_nothing_left.

(** loaded, prepared, unloaded and loaded again: one object deleted, one alive *)
Example C60_example : exists h, @run B64 (b64_ofZ 1) h ex_s4 /\ in_use h "x" = true /\ length h = 4%nat /\
  map (fun o : option (gset B64) => match o with Some _ => true | None => false end) (a_objs ex_s4) = [false; true].
Proof.
  destruct ex_history as (a1 & a2 & a3 & a4 & _ & _ & _ & H4). eexists. split; [exact H4|]. split; [reflexivity|]. split; [reflexivity|].
  vm_compute. reflexivity.
Qed.

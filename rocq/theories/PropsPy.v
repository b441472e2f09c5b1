(** Properties C53 and C54: the Python module.  Specification: PySpec.v. *)
From Coq Require Import String Ascii.
From Flocq Require Import IEEE754.BinarySingleNaN.
From Verif Require Import Base Num NumB64 LoopFacts TimeSeries TSSet Distance Candidate GroupSpace DataSpec DataProofs Loader LoaderSpec LoaderProofs
  Api ApiSpec ApiProofs Py PySpec PyProofs PropsLoader PropsApi.
Local Open Scope Z_scope.
Local Open Scope list_scope.

(** ** C53 *)

(** A call whose arguments fit the documented parameters, by position, keyword or default,
    does what the documentation says: the state and the result are those of the function of
    the library, shown as Python values or exceptions. *)
Theorem C53_call : forall (N : Num) (pe : pyenv N) (e : env N) f sig args kw vals c s s' r o,
  signature f = Some sig -> bound sig args kw vals -> documented pe f vals c ->
  exec e c s = (s', r) -> seen_as pe r o ->
  pycall pe e f args kw s = (s', o).
Proof.
  intros N pe e f sig args kw vals c s s' r o Hs Hb Hd He Ho.
  destruct (module_sig f sig Hs) as (g & Hg & _). destruct (match_sig f sig g args kw vals Hs Hg Hb) as [Hm _].
  destruct (documented_call pe f vals c g Hd Hg) as (Hc & cs & Hx & Hf).
  unfold pycall. rewrite Hg, Hm, Hc, Hx, Hf, He, (seen_ok pe r o Ho). reflexivity.
Qed.
Print Assumptions C53_call.

(** Reading a series back: getTimeSeries of a held data set returns the numbers of the row,
    all of them without [start] and [end], those from start to end-1 otherwise. *)
Theorem C53_series : forall (N : Num) (pe : pyenv N) (e : env N) (s : api N) n g rows i row,
  held s n = Some g -> holds (gt_data g) rows -> row_of rows i = Some row -> i <= int_max ->
  pycall pe e "getTimeSeries" [PStr n; PInt i] [] s = (s, PRet (PList (map PFloat row))) /\
  (forall st en, 0 <= st < en -> en <= Z.of_nat (length row) -> en <= int_max ->
     let shown := PRet (PList (map PFloat (slice row st en))) in
     pycall pe e "getTimeSeries" [PStr n; PInt i; PInt st; PInt en] [] s = (s, shown) /\
     pycall pe e "getTimeSeries" [PStr n; PInt i] [("end"%string, PInt en); ("start"%string, PInt st)] s = (s, shown)).
Proof.
  intros N pe e s n g rows i row Hh Hd Hi Hm.
  assert (H0 : 0 <= i) by (revert Hi; unfold row_of; destruct (Z.ltb_spec i 0); [discriminate|auto]).
  assert (Ai : an_int (N := N) (PInt i) i) by (split; [unfold int_min; lia|auto]).
  assert (Hf : find_set s n = Ret g) by (revert Hh; unfold held; destruct (find_set s n); congruence).
  split.
  - destruct (getTimeSeries_whole (gt_data g) rows i (-1) (-1) row Hd Hi ltac:(lia) ltac:(lia)) as (t & Et & Ep & Ok & _).
    eapply (C53_call N pe e "getTimeSeries" _ _ _ [PStr n; PInt i; PInt (-1); PInt (-1)] (CSeries n i (-1) (-1)) s s (Ret (ASeries t))).
    + reflexivity.
    + repeat constructor; simpl; auto.
    + constructor; auto; (split; [unfold int_min, int_max; lia|auto]).
    + cbn [exec]. unfold pure. rewrite Hf. cbn. rewrite Et. reflexivity.
    + rewrite <- Ep. constructor. constructor. exact Ok.
  - intros st en Hs He Hx shown.
    destruct (getTimeSeries_ok (gt_data g) rows i st en row Hd Hi Hs He) as (t & Et & Ep & Ok & _).
    assert (X : exec e (CSeries n i st en) s = (s, Ret (ASeries t))) by (cbn [exec]; unfold pure; rewrite Hf; cbn; rewrite Et; reflexivity).
    assert (Y : seen_as pe (Ret (ASeries t)) shown) by (unfold shown; rewrite <- Ep; constructor; constructor; exact Ok).
    assert (Dc : documented pe "getTimeSeries" [PStr n; PInt i; PInt st; PInt en] (CSeries n i st en))
      by (constructor; auto; (split; [unfold int_min, int_max in *; lia|auto])).
    split; eapply C53_call; try exact X; try exact Y; try exact Dc; try reflexivity.
    + repeat constructor; simpl; auto.
    + apply b_given; [|simpl; intuition discriminate]. apply b_given; [|simpl; intuition discriminate].
      apply (b_keyword _ _ _ _ _ [("end"%string, PInt en)] []); [|simpl; intuition discriminate].
      apply (b_keyword _ _ _ _ _ [] []); [|simpl; intuition discriminate]. constructor.
Qed.
Print Assumptions C53_series.

(** Loading a table and reading it back: the description counts its rows and columns, and
    every series is the row of the file. *)
Lemma load_now {N : Num} (e : env N) s n path seps mr sc has d : good s -> held s n = None ->
  loadData (e_stod e) (e_files e) ds_new path mr sc seps has = (d, Ret tt) ->
  exists s' a, exec e (CLoad n path seps mr sc has) s = (s', Ret a).
Proof.
  intros G Hh El. destruct (find_alive s n G) as [(id & g & _ & _ & _ & _ & _ & _ & H)|(Ha & _)]; [congruence|].
  cbn [exec]. rewrite Ha, El. set (s1 := mkApi _ _ _ _ _).
  assert (Hn : held s1 n = Some (mkGS d None)).
  { eapply held_of with (id := length (a_objs s)).
    - unfold s1. cbn. rewrite assoc_put; [rewrite String.eqb_refl; reflexivity|apply G].
    - unfold s1. cbn. rewrite nth_error_app2 by lia. rewrite Nat.sub_diag. reflexivity. }
  destruct (info_fresh s1 n _ Hn eq_refl) as (i & Ei & _). unfold pure. rewrite Ei. cbn. eauto.
Qed.

Theorem C53_load_and_read : forall (N : Num) (r0 : D N) (h : list event) (s : api N) (pe : pyenv N) (e : env N)
  n path text seps mr sc (has : bool) ls tbl w rows,
  run r0 h s -> in_use h n = false ->
  e_files e path = Some (mkFile text None) -> has_lines text ls -> Forall2 (has_fields (c_str seps)) ls tbl ->
  ls <> [] -> 0 <= sc <= int_max -> int_min <= mr <= int_max -> widest tbl w ->
  (forall r, In r (wanted mr tbl) -> sc + (if has then 1 else 0) <= Z.of_nat (length r)) ->
  Z.of_nat (length (wanted mr tbl)) * w <= int_max ->
  table (e_stod e) (map (skipn (Z.to_nat (sc + (if has then 1 else 0)))) (wanted mr tbl)) = Ret rows ->
  p_utf8 pe n = true ->
  exists s', pycall pe e "loadDataset" [PStr n; PStr path; PStr seps; PInt mr; PInt sc; PBool has] [] s =
      (s', PRet (PDict [("name", PStr n); ("count", PInt (Z.of_nat (length rows)));
                        ("length", PInt (w - sc - (if has then 1 else 0)))]%string)) /\
    forall pe' e' i row, row_of rows i = Some row -> i <= int_max ->
      pycall pe' e' "getTimeSeries" [PStr n; PInt i] [] s' = (s', PRet (PList (map PFloat row))).
Proof.
  intros N r0 h s pe e n path text seps mr sc has ls tbl w rows Hrun Hu Hfile Hl HF Hne Hsc Hmr Hw Hlen Hsz Ht Hutf.
  pose proof (C29_load_table N (e_stod e) (e_files e) path text seps mr sc has ls tbl w Hfile Hl HF Hne (proj1 Hsc) Hw Hlen Hsz) as L.
  rewrite Ht in L. destruct L as (d & El & Hd & Hc & _).
  assert (Hn : held s n = None).
  { pose proof (run_in_use r0 h s Hrun n) as H. rewrite Hu in H. destruct (held s n); [|reflexivity].
    exfalso. assert (false = true) by (apply H; discriminate). discriminate. }
  destruct (load_now e s n path seps mr sc has d (run_good r0 h s Hrun) Hn El) as (s' & a & Ex).
  destruct (C32_load N r0 h s e n path seps mr sc has s' (Ret a) Hrun Ex I) as [_ H].
  destruct (H a eq_refl) as (d' & i & El' & Hh & -> & En & Ec & Em & _). rewrite El in El'. injection El' as <-.
  exists s'. split.
  - eapply C53_call; [reflexivity| |apply d_load with (h := PBool has)|exact Ex|].
    + repeat constructor; simpl; auto.
    + split; [exact Hmr|auto].
    + split; [unfold int_min, int_max in *; lia|auto].
    + left. reflexivity.
    + constructor. pose proof (s_info pe i) as S. rewrite En, Ec, Em, Hc in S. destruct Hd as (buf & _ & Ect & _). rewrite Ect in S.
      apply S, Hutf.
  - intros pe' e' j row Hj Hjm. eapply (C53_series N pe' e' s' n (mkGS d None) rows j row); auto.
Qed.
Print Assumptions C53_load_and_read.

(** The defaults declared for getMatching, start2 = -1 and end2 = -1, cannot be used: the
    names belong to its last two parameters, which are end2 and distanceName.  Each call
    without all nine arguments is rejected. *)
Theorem C53_matching_defaults_refuted : forall (N : Num) (pe : pyenv N) (e : env N) args s,
  (length args < 9)%nat -> pycall pe e "getMatching" args [] s = (s, PRaise argument_error).
Proof.
  intros N pe e args s H.
  destruct args as [|a1 [|a2 [|a3 [|a4 [|a5 [|a6 [|a7 [|a8 [|a9 args]]]]]]]]]; try reflexivity; [| |simpl in H; lia];
    unfold pycall; cbn; rewrite ?andb_false_r; reflexivity.
Qed.
Print Assumptions C53_matching_defaults_refuted.

(** The keyword start2 sets end2, and end2 sets the name of the distance. *)
Theorem C53_matching_keywords_refuted : forall (N : Num) (pe : pyenv N) (e : env N) n1 i1 s1 e1 n2 i2 s2 v w s,
  let args := [PStr n1; PInt i1; PInt s1; PInt e1; PStr n2; PInt i2; PInt s2] in
  pycall pe e "getMatching" args [("start2"%string, v); ("end2"%string, w)] s =
  pycall pe e "getMatching" (args ++ [v; w]) [] s.
Proof. reflexivity. Qed.
Print Assumptions C53_matching_keywords_refuted.

(** ** C54 *)

(** An unknown function, a wrong number of arguments, a keyword that is not the name of a
    parameter left to be given, a value of the wrong type and a number out of range are
    rejected with an exception and change nothing. *)
Theorem C54_unknown_function : forall (N : Num) (pe : pyenv N) (e : env N) f args kw s,
  signature (N := N) f = None -> pycall pe e f args kw s = (s, PRaise attribute_error).
Proof. intros N pe e f args kw s H. unfold pycall. rewrite (module_none f H). reflexivity. Qed.
Print Assumptions C54_unknown_function.

Lemma required_count {N : Num} (sig : list (string * ptype * option (pyval N))) :
  (required sig + length (filter (fun p => match snd p with Some _ => true | None => false end) sig) = length sig)%nat.
Proof. unfold required. induction sig as [|[p [d|]] sig IH]; simpl in *; lia. Qed.

Theorem C54_wrong_number : forall (N : Num) (pe : pyenv N) (e : env N) f (sig : list (string * ptype * option (pyval N))) args kw s,
  signature f = Some sig -> f <> "getMatching"%string \/ kw = [] ->
  (length args + length kw < required sig \/ length sig < length args + length kw)%nat ->
  pycall pe e f args kw s = (s, PRaise argument_error).
Proof.
  intros N pe e f sig args kw s Hs Hk Hn. destruct (module_sig f sig Hs) as (g & Hg & Ht & Ha).
  destruct (String.eqb_spec f "getMatching"%string) as [->|Hne].
  - destruct Hk as [Hk| ->]; [contradiction|]. revert Hs. unfold signature. simpl. intros [= <-]. cbn [length required filter snd need] in Hn.
    unfold required in Hn. cbn in Hn. rewrite Nat.add_0_r in Hn. destruct Hn as [Hn|Hn]; [apply C53_matching_defaults_refuted; lia|].
    unfold pycall. revert Hg. unfold pymodule. simpl. intros _. unfold match_args. cbn [length f_types f_keys]. rewrite Nat.add_0_r.
    destruct (Nat.leb_spec (length args) 9); [lia|]. rewrite andb_false_r. reflexivity.
  - destruct (Ha Hne) as (A1 & A2 & A3). destruct (keys_count g sig A1 A2) as [K _]. pose proof (required_count sig) as R.
    unfold pycall. rewrite Hg. unfold match_args. rewrite A2.
    destruct (Nat.leb_spec (length sig) (length args + length kw + length (f_keys g)));
    destruct (Nat.leb_spec (length args + length kw) (length sig)); simpl; try reflexivity. exfalso. lia.
Qed.
Print Assumptions C54_wrong_number.

Theorem C54_bad_keyword : forall (N : Num) (pe : pyenv N) (e : env N) f (sig : list (string * ptype * option (pyval N))) args kw k s,
  signature f = Some sig -> f <> "getMatching"%string -> (required sig <= length args)%nat ->
  NoDup (map fst kw) -> In k (map fst kw) -> ~ In k (map (fun p => fst (fst p)) (skipn (length args) sig)) ->
  pycall pe e f args kw s = (s, PRaise argument_error).
Proof.
  intros N pe e f sig args kw k s Hs Hne Hr Hnd Hk Hno. destruct (module_sig f sig Hs) as (g & Hg & Ht & Ha).
  destruct (Ha Hne) as (A1 & A2 & A3). destruct (keys_count g sig A1 A2) as [K _]. pose proof (required_count sig) as R.
  unfold pycall. rewrite Hg.
  assert (M : match_args g args kw = NoMatch).
  { unfold match_args. rewrite A2. destruct (_ && _)%bool eqn:Ec; [|reflexivity].
    destruct (Nat.ltb_spec 0 (length kw)) as [_|H0]; [|destruct kw; [destruct Hk|simpl in H0; lia]]. cbn [orb].
    destruct (f_keys g) as [|k0 ks] eqn:Ek; [reflexivity|]. rewrite <- Ek in *.
    assert (Hsome : skipn (length args) (named g) = map Some (skipn (length args - required sig) (f_keys g))).
    { unfold named. rewrite A2. replace (length sig - length (f_keys g))%nat with (required sig) by lia.
      rewrite skipn_app, repeat_length, skipn_map. rewrite skipn_all2 by (rewrite repeat_length; lia). reflexivity. }
    assert (Hnames : map (fun p => fst p) (skipn (length args - required sig) (f_keys g)) = map (fun p => fst (fst p)) (skipn (length args) sig)).
    { assert (E : map Some (skipn (length args - required sig) (f_keys g)) = map keyed (skipn (length args) sig))
        by (rewrite <- Hsome, A1, skipn_map; reflexivity).
      clear -E. revert E. generalize (skipn (length args) sig) as l. generalize (skipn (length args - required sig) (f_keys g)) as m.
      induction m as [|[a b] m IH]; intros [|[[n t] [d|]] l] E; try discriminate; auto. cbn [map] in *. unfold keyed at 1 in E. cbn in E.
      injection E as -> _ E. rewrite (IH _ E). reflexivity. }
    rewrite Hsome. rewrite <- Hnames in Hno.
    assert (HndP : NoDup (map (fun p => fst p) (skipn (length args - required sig) (f_keys g)))).
    { rewrite Hnames. clear -A3. revert sig A3. induction (length args) as [|n IH]; intros sig A3; auto.
      destruct sig as [|p sig]; auto. inversion_clear A3. simpl. apply IH; auto. }
    clear -Hno HndP Hnd Hk. set (ps := skipn (length args - required sig) (f_keys g)) in *. clearbody ps.
    assert (F : exists vs l, fill (map Some ps) kw = Some (vs, length l) /\ NoDup l /\ incl l (map fst kw) /\ incl l (map fst ps)).
    { clear Hno. induction ps as [|[n d] ps IH]; [exists [], []; repeat split; auto; constructor || intros ? []|].
      inversion_clear HndP. destruct (IH H0) as (vs & l & E1 & E2 & E3 & E4). cbn [map fill]. rewrite E1.
      destruct (assoc n kw) as [v|] eqn:Ea.
      - exists (v :: vs), (n :: l). split; [reflexivity|]. split; [constructor; auto|].
        split; intros x [<-|Hx]; [eapply PyProofs.assoc_in; eauto|auto|left; auto|right; auto].
      - exists (d :: vs), l. repeat split; auto. intros x Hx. right. auto. }
    destruct F as (vs & l & -> & E2 & E3 & E4).
    assert (Hlt : (length (k :: l) <= length (map fst kw))%nat).
    { apply NoDup_incl_length; [constructor; auto|]. intros x [<-|Hx]; auto. }
    rewrite map_length in Hlt. cbn [length] in Hlt. destruct (Nat.ltb_spec (length args + length l) (length args + length kw)); [reflexivity|lia]. }
  rewrite M. reflexivity.
Qed.
Print Assumptions C54_bad_keyword.

Theorem C54_wrong_type : forall (N : Num) (pe : pyenv N) (e : env N) f (sig : list (string * ptype * option (pyval N))) args kw vals s,
  signature f = Some sig -> bound sig args kw vals -> ~ Forall2 has_type (map (fun p => snd (fst p)) sig) vals ->
  pycall pe e f args kw s = (s, PRaise argument_error).
Proof.
  intros N pe e f sig args kw vals s Hs Hb Hn. destruct (module_sig f sig Hs) as (g & Hg & _).
  destruct (match_sig f sig g args kw vals Hs Hg Hb) as [Hm Ht].
  unfold pycall. rewrite Hg, Hm. destruct (all_convertible (f_types g) vals) eqn:Ec; [|reflexivity].
  exfalso. apply Hn. apply conv_all. rewrite map_map, <- Ht. exact Ec.
Qed.
Print Assumptions C54_wrong_type.

Theorem C54_out_of_range : forall (N : Num) (pe : pyenv N) (e : env N) f (sig : list (string * ptype * option (pyval N))) args kw vals s k t v,
  signature f = Some sig -> bound sig args kw vals -> Forall2 has_type (map (fun p => snd (fst p)) sig) vals ->
  nth_error (map (fun p => snd (fst p)) sig) k = Some t -> nth_error vals k = Some v ->
  (t = Number /\ (exists z, v = PInt z /\ (z < int_min \/ int_max < z))) \/ (t = Real /\ exists z, v = PInt z /\ p_float pe z = None) ->
  pycall pe e f args kw s = (s, PRaise overflow_error).
Proof.
  intros N pe e f sig args kw vals s k t v Hs Hb Hty Ht Hv Hout. destruct (module_sig f sig Hs) as (g & Hg & _).
  destruct (match_sig f sig g args kw vals Hs Hg Hb) as [Hm Hts].
  unfold pycall. rewrite Hg, Hm. rewrite <- (map_map (fun p => snd (fst p)) ctype_of) in Hts.
  rewrite Hts. rewrite (proj2 (conv_all _ _) Hty).
  assert (X : extract_all pe (map ctype_of (map (fun p => snd (fst p)) sig)) vals = None).
  { clear -Ht Hv Hout. revert k vals Ht Hv. induction (map (fun p => snd (fst p)) sig) as [|u ts IH]; intros k [|w vs] Ht Hv; destruct k; try discriminate.
    - simpl in Ht, Hv. injection Ht as ->. injection Hv as ->. cbn [map extract_all].
      assert (E : extract pe (ctype_of t) v = None).
      { destruct Hout as [(-> & z & -> & Hz)|(-> & z & -> & Hz)]; cbn.
        - destruct (Z.leb_spec int_min z); destruct (Z.leb_spec z int_max); try reflexivity. lia.
        - rewrite Hz. reflexivity. }
      rewrite E. reflexivity.
    - cbn [map extract_all]. rewrite (IH k vs Ht Hv). destruct (extract pe (ctype_of u) w); reflexivity. }
  rewrite X. reflexivity.
Qed.
Print Assumptions C54_out_of_range.

(** Whatever a Python program does with the module, the state is one that calls of the
    library lead to, at most one for each call of the program; so what holds after all
    histories of calls of the library holds in Python. *)
Theorem C54_session : forall (N : Num) (r0 : D N) ph (s : api N), pyrun r0 ph s ->
  exists h, run r0 h s /\ (length h <= length ph)%nat.
Proof.
  intros N r0 ph s H. induction H as [|ph s pe e f args kw s' r H IH Hc Hr].
  - exists []. split; [constructor|auto].
  - destruct IH as (h & Hrun & Hl). rewrite app_length. simpl.
    assert (Same : s' = s -> exists h', run r0 h' s' /\ (length h' <= length ph + 1)%nat) by (intros ->; exists h; split; [exact Hrun|lia]).
    unfold pycall in Hc. destruct (assoc f pymodule) as [g|]; [|injection Hc as <- _; auto].
    destruct (match_args g args kw) as [vs| |]; [|injection Hc as <- _; auto|injection Hc as <- _; auto].
    destruct (all_convertible (f_types g) vs); [|injection Hc as <- _; auto].
    destruct (extract_all pe (f_types g) vs) as [cs|]; [|injection Hc as <- _; auto].
    destruct (f_call g cs) as [c|]; [|injection Hc as <- _; auto].
    destruct (exec e c s) as [s1 r1] eqn:E. injection Hc as <- <-.
    assert (En : ends r1) by (destruct r1; simpl in *; auto).
    exists (h ++ [(c, r1)]). split; [econstructor; eauto|]. rewrite app_length. simpl. lia.
Qed.
Print Assumptions C54_session.

(** A name that is not in use raises RuntimeError with the message of the library and
    changes nothing, in all sessions and for all functions that take the name of a data
    set that has to be there. *)
Theorem C54_unknown_name : forall (N : Num) (r0 : D N) ph (s : api N) (pe : pyenv N) (e : env N) f sig args kw vals c n,
  pyrun r0 ph s -> signature f = Some sig -> bound sig args kw vals -> documented pe f vals c -> In n (needs c) -> held s n = None ->
  pycall pe e f args kw s = (s, PRaise (mkExn "RuntimeError" "There is no dataset with the given name")).
Proof.
  intros N r0 ph s pe e f sig args kw vals c n Hp Hs Hb Hd Hn Hh. destruct (C54_session N r0 ph s Hp) as (h & Hrun & _).
  eapply C53_call; eauto; [|constructor]. eapply C32_unknown; eauto.
  pose proof (run_in_use r0 h s Hrun n) as H. destruct (in_use h n); [|reflexivity]. exfalso. apply H; auto.
Qed.
Print Assumptions C54_unknown_name.

(** ** Examples *)

(** results without the type of floats *)
Inductive plain := LNone | LBool (b : bool) | LInt (z : Z) | LFloat (x : SpecFloat.spec_float) | LStr (s : string)
  | LList (l : list plain) | LTuple (l : list plain) | LDict (l : list (string * plain)).
Fixpoint plain_of (v : pyval B64) : plain :=
  match v with
  | PNone => LNone | PBool b => LBool b | PInt z => LInt z | PFloat x => LFloat (B2SF (x : b64)) | PStr s => LStr s
  | PList l => LList (map plain_of l) | PTuple l => LTuple (map plain_of l)
  | PDict l => LDict (map (fun p => (fst p, plain_of (snd p))) l)
  end.
Inductive ending := Gives (p : plain) | Raises (class text : string) | Other.
Definition ending_of (r : pyres B64) : ending :=
  match r with PRet v => Gives (plain_of v) | PRaise x => Raises (x_class x) (x_text x) | _ => Other end.

Definition ex_py : pyenv B64 :=
  mkPyEnv (N := B64) (fun z => if Z.abs z <=? 2 ^ 1000 then Some (b64_ofZ z) else None) (fun _ => true) (fun w => mkExn "RuntimeError" w).
(** a program: calls one after the other *)
Fixpoint program (l : list (string * list (pyval B64) * list (string * pyval B64))) (s : api B64) : list ending :=
  match l with
  | [] => []
  | (f, args, kw) :: l' => let '(s', r) := pycall ex_py ex_env f args kw s in ending_of r :: program l' s'
  end.
Definition fl (z : Z) : plain := LFloat (B2SF (b64_ofZ z)).

Example C53_example :
  program [("loadDataset", [PStr "x"; PStr "f"], [("separators", PStr ",")]);
           ("getTimeSeries", [PStr "x"; PInt 1], []);
           ("getTimeSeries", [PStr "x"; PInt 1], [("end", PInt 1); ("start", PBool false)]);
           ("getMatching", [PStr "x"; PInt 0; PInt (-1); PInt (-1); PStr "x"; PInt 1; PInt (-1); PInt (-1); PStr "euclidean_dtw"], []);
           ("getMatching", [PStr "x"; PInt 0; PInt (-1); PInt (-1); PStr "x"; PInt 1; PInt (-1); PInt (-1)], []);
           ("group", [PStr "x"; PInt 1], [("wholeSeriesOnly", PNone)]);
           ("sim", [PStr "x"; PStr "x"; PInt 2; PInt 0; PInt 2], []);
           ("normalize", [PStr "x"], []);
           ("unloadDataset", [PStr "x"], [])]%string ex_start =
  [Gives (LDict [("name", LStr "x"); ("count", LInt 3); ("length", LInt 2)]);
   Gives (LList [fl 3; fl 4]);
   Gives (LList [fl 3]);
   Gives (LList [LTuple [LInt 0; LInt 0]; LTuple [LInt 1; LInt 1]]);
   Raises "ArgumentError" "";
   Gives (LInt 3);
   Gives (LDict [("dist", fl 0); ("data", LDict [("index", LInt 2); ("start", LInt 0); ("end", LInt 2)])]);
   Gives (LTuple [fl 1; fl 6]);
   Gives LNone]%string.
Proof. vm_compute. reflexivity. Qed.

(** the hypotheses of C53_series and C53_load_and_read *)
Example C53_series_example (e : env B64) :
  pycall ex_py e "getTimeSeries" [PStr "x"; PInt 1] [] ex_s1 = (ex_s1, PRet (PList [PFloat (b64_ofZ 3 : D B64); PFloat (b64_ofZ 4 : D B64)])).
Proof.
  destruct ex_held as (d & Hh & Hd & _).
  exact (proj1 (C53_series B64 ex_py e ex_s1 "x" (mkGS d None) ex_rows 1 (map b64_ofZ [3; 4]) Hh Hd eq_refl ltac:(unfold int_max; lia))).
Qed.
Example C53_load_example : exists s', pycall ex_py ex_env "loadDataset" [PStr "y"; PStr "f"; PStr ","; PInt 0; PInt 0; PBool false] [] ex_s1 =
    (s', PRet (PDict [("name", PStr "y"); ("count", PInt 3); ("length", PInt 2)]%string)) /\
  pycall ex_py ex_env "getTimeSeries" [PStr "y"; PInt 2] [] s' = (s', PRet (PList [PFloat (b64_ofZ 5 : D B64); PFloat (b64_ofZ 6 : D B64)])).
Proof.
  destruct ex_history as (a1 & _ & _ & _ & H1 & _).
  destruct (C53_load_and_read B64 (b64_ofZ 1) _ ex_s1 ex_py ex_env "y" "f" ex_file "," 0 0 false (file_lines ex_file)
     (map (tokenize ",") (file_lines ex_file)) 2 ex_rows H1) as (s' & E & R).
  - reflexivity.
  - reflexivity.
  - apply has_lines_file.
  - generalize (file_lines ex_file). induction l as [|x l IH]; [constructor|]. cbn [map]. constructor; auto.
    destruct (has_fields_ex (c_str ",") x) as [ts H]. rewrite (tokenize_ok _ _ _ H). exact H.
  - discriminate.
  - unfold int_max. lia.
  - unfold int_max, int_min. lia.
  - split; [intros r [<-|[<-|[<-|[]]]]; vm_compute; discriminate|]. exists ["1"; "2"]%string. split; [left; reflexivity|reflexivity].
  - intros r [<-|[<-|[<-|[]]]]; vm_compute; discriminate.
  - vm_compute. discriminate.
  - reflexivity.
  - reflexivity.
  - exists s'. split; [exact E|]. apply (R ex_py ex_env 2 (map b64_ofZ [5; 6])); [reflexivity|unfold int_max; lia].
Qed.

(** C54: a misspelt function, too few and too many arguments, an unknown keyword, a
    parameter given twice, a float for an int, None for a name, large numbers, a name not
    in use; the data set is as before *)
Example C54_example :
  program [("loadDataset", [PStr "x"; PStr "f"], [("separators", PStr ",")]);
           ("load", [PStr "x"; PStr "f"], []);
           ("normalize", [], []);
           ("normalize", [PStr "x"; PStr "x"], []);
           ("group", [PStr "x"; PInt 1], [("threads", PInt 1)]);
           ("group", [PStr "x"; PInt 1; PStr "euclidean"], [("distanceName", PStr "euclidean")]);
           ("getTimeSeries", [PStr "x"; PFloat (b64_ofZ 1 : D B64)], []);
           ("normalize", [PNone], []);
           ("getTimeSeries", [PStr "x"; PInt 2147483648], []);
           ("group", [PStr "x"; PInt (2 ^ 1024)], []);
           ("getTimeSeries", [PStr "y"; PInt 0], []);
           ("getTimeSeries", [PStr "x"; PInt 0], [])]%string ex_start =
  [Gives (LDict [("name", LStr "x"); ("count", LInt 3); ("length", LInt 2)]);
   Raises "AttributeError" "";
   Raises "ArgumentError" ""; Raises "ArgumentError" ""; Raises "ArgumentError" ""; Raises "ArgumentError" ""; Raises "ArgumentError" "";
   Raises "ArgumentError" "";
   Raises "OverflowError" ""; Raises "OverflowError" "";
   Raises "RuntimeError" "There is no dataset with the given name";
   Gives (LList [fl 1; fl 2])]%string.
Proof. vm_compute. reflexivity. Qed.

(** a session in the sense of [pyrun] *)
Example C54_session_example : exists ph, pyrun (N := B64) (b64_ofZ 1) ph (fst (pycall ex_py ex_env "loadDataset" [PStr "x"; PStr "f"] [("separators"%string, PStr ",")] ex_start)) /\
  ph <> [].
Proof.
  destruct (pycall ex_py ex_env "loadDataset" [PStr "x"; PStr "f"] [("separators"%string, PStr ",")] ex_start) as [s' r] eqn:E.
  exists ([] ++ [("loadDataset"%string, r)]). split; [|discriminate]. eapply py_step; [apply py_start|exact E|].
  assert (X : match ending_of r with Gives _ => True | _ => False end).
  { replace r with (snd (pycall ex_py ex_env "loadDataset" [PStr "x"; PStr "f"] [("separators"%string, PStr ",")] ex_start)) by (rewrite E; reflexivity).
    vm_compute. exact I. }
  destruct r; simpl in X; try contradiction; exact I.
Qed.

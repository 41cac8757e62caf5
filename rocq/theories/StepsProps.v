(** C84: the steps of scripts in an arbitrary file. *)
From Coq Require Import Ascii String NArith List Bool Lia Permutation Sorting.Sorted.
From Verif Require Import Prelude PreludeFacts Utf8 EncodingModel CharConvModel ChunkModel InstrModel ComponentModel AsmSpec DecompModel DecompSpec DecompCalcSpec
  DecompScriptSpec DecompChain DecompStream DecompRecoverSpec DecompRecover4 DecompProps DecompRecoverProps HistorySpec History History2 History3 HistoryProps StepsSpec Steps Steps2 Steps3.
Import ListNotations.
Local Open Scope N_scope.

(** C22: what any bytes say as a compiled calculation; bytes that say nothing abort. *)
Theorem calculation_exact : forall d,
  (forall c, decompile_calculation d = Ok c <-> calc_says d c) /\
  (forall c c', calc_says d c -> calc_says d c' -> c = c') /\
  ((forall c, ~ calc_says d c) -> decompile_calculation d = Panic).
Proof.
  intros d. split; [intros c; apply calc_exact|]. split; [apply calc_says_det|].
  intros H. destruct (decompile_calculation d) as [c| |] eqn:E; [|reflexivity|now apply nf_calc in E]. exfalso. apply (H c). now apply calc_exact.
Qed.
Print Assumptions calculation_exact.
Example calculation_exact_ex :
  calc_says [0x9c; 0x1d; 7; 0x13; 1; 0x3b; 0x10; 0; 0; 0; 0; 0; 0; 0; 0; 42; 9] (lit "CurrentTime""a""42") /\ (forall c, ~ calc_says [0x13; 2; 0x3b] c).
Proof.
  split; [apply calc_exact; vm_compute; reflexivity|]. intros c H. apply calc_exact in H. vm_compute in H. discriminate.
Qed.

(** C84: in a file that can be decompiled, the steps of every script are those its records say, which are determined. *)
Theorem C84_any_file : forall order fuel buf f h, bytes buf -> (forall l, Permutation (order l) l) -> decompile order fuel buf = Ok f -> file_history buf 2 h ->
  forall k sc, nget (f_scripts f) k = Some sc ->
    steps_of k h (sc_steps sc) /\ (forall l, steps_of k h l -> l = sc_steps sc) /\ sc_args sc = [] /\ sc_account sc = [] /\ sc_user sc = [].
Proof.
  intros order fuel buf f h HB PO D F k sc E. destruct (decompile_steps _ _ _ _ HB PO D) as (h' & F' & S & _). rewrite (history_det _ _ _ F _ F').
  destruct (S _ _ E) as (S1 & S2). split; [exact S1|]. split; [|exact S2]. intros l L. exact (steps_of_det _ _ _ _ L S1).
Qed.
Print Assumptions C84_any_file.

(** Set Variable has number 141, Perform Script 1, Exit Script 103. *)
Definition piece (i call op : N) : list N := [2; 9; i; 0; 0; 0; 0; 0; call] ++ repeat 0 12 ++ [op] ++ repeat 0 6.
Definition segment_at (p : list N) (n : N) (d : list N) : entry := (p, mkChunk DataSegment 7 (Some d) None p (Some n) None).
Definition demo_records : history :=
  [put_at [17; 1; 1; 3] 16 (fm_string_encrypt (lit "Run")); put_at [17; 5; 3] 4 (piece 1 0 141 ++ piece 2 0 15 ++ piece 3 3 1 ++ [9; 9]);
   put_at [17; 5; 3; 5; 1; 128] 1 (fm_string_encrypt (lit "$x")); put_at [17; 5; 3; 5; 1; 129; 5] 5 [0x1a; 2; 126; 34];
   segment_at [17; 5; 3; 4] 2 (skipn 10 (piece 5 0 103)); segment_at [17; 5; 3; 4] 1 [1]; segment_at [17; 5; 3; 4] 1 (firstn 10 (piece 5 0 103));
   segment_at [17; 5; 3] 4 (piece 1 0 141)].
Example C84_any_file_ex :
  steps_of 3 demo_records [mkStep ISetVariable 1 [lit "$x"; lit "$x"]; mkStep ISetVariable 1 []; mkStep IPerformScript 3 [lit "Run"]; mkStep IExitScript 5 []].
Proof.
  exists [mkStep ISetVariable 1 [lit "$x"; lit "$x"]; mkStep ISetVariable 1 []; mkStep IPerformScript 3 [lit "Run"]], (piece 5 0 103), [mkStep IExitScript 5 []].
  assert (N141 : step_number 141 ISetVariable) by (left; split; reflexivity).
  assert (N103 : step_number 103 IExitScript) by (left; split; reflexivity).
  assert (N1 : step_number 1 IPerformScript) by (left; split; reflexivity).
  split.
  - set (ex := fun h e l l' (I : in_place 3 h l) (C : contributes (fun j => script_name_of j h) 3 e l l') => IpNext 3 h e l l' I C).
    assert (I1 : in_place 3 [put_at [17; 1; 1; 3] 16 (fm_string_encrypt (lit "Run"))] []) by (apply (ex [] _ [] []); [constructor|reflexivity]).
    assert (I2 : in_place 3 (firstn 2 demo_records) [mkStep ISetVariable 1 []; mkStep IPerformScript 3 [lit "Run"]]).
    { apply (ex (firstn 1 demo_records) _ [] _ I1). exists (piece 1 0 141 ++ piece 2 0 15 ++ piece 3 3 1 ++ [9; 9]), [mkStep ISetVariable 1 []; mkStep IPerformScript 3 [lit "Run"]].
      split; [reflexivity|]. split; [|reflexivity].
      exists [piece 1 0 141; piece 2 0 15; piece 3 3 1; [9; 9]], [Some (mkStep ISetVariable 1 []); None; Some (mkStep IPerformScript 3 [lit "Run"])].
      split; [repeat (apply CutMore; [reflexivity|]); apply CutShort; [discriminate|reflexivity]|]. split; [|reflexivity].
      cbn [filter]. repeat constructor.
      - exists 141. split; [reflexivity|]. split; [exact N141|]. split; [exists 9, [1], (skipn 3 (piece 1 0 141)); split; reflexivity|reflexivity].
      - exists 15. split; [reflexivity|]. split; [reflexivity|]. intros i [[_ H]|[H _]]; [destruct i; discriminate|discriminate].
      - exists 1. split; [reflexivity|]. split; [exact N1|]. split; [exists 9, [3], (skipn 3 (piece 3 3 1)); split; reflexivity|].
        exists 3, (lit "Run"). split; [reflexivity|]. split; [vm_compute; reflexivity|reflexivity]. }
    assert (I3 : in_place 3 (firstn 3 demo_records) [mkStep ISetVariable 1 [lit "$x"]; mkStep IPerformScript 3 [lit "Run"]]).
    { apply (ex (firstn 2 demo_records) _ _ _ I2). exists [], (mkStep ISetVariable 1 []), [mkStep IPerformScript 3 [lit "Run"]], [lit "$x"]. repeat split; auto. }
    assert (I4 : in_place 3 (firstn 4 demo_records) [mkStep ISetVariable 1 [lit "$x"; lit "$x"]; mkStep IPerformScript 3 [lit "Run"]]).
    { apply (ex (firstn 3 demo_records) _ _ _ I3). exists [], (mkStep ISetVariable 1 [lit "$x"]), [mkStep IPerformScript 3 [lit "Run"]], [lit "$x"]. repeat split; auto.
      exists [0x1a; 2; 126; 34], (lit "$x"). split; [reflexivity|]. split; [|reflexivity]. apply calc_exact. vm_compute. reflexivity. }
    assert (I7 : in_place 3 (firstn 7 demo_records) [mkStep ISetVariable 1 [lit "$x"; lit "$x"]; mkStep IPerformScript 3 [lit "Run"]]).
    { eapply (ex (firstn 6 demo_records)); [|reflexivity]. eapply (ex (firstn 5 demo_records)); [|reflexivity].
      eapply (ex (firstn 4 demo_records)); [exact I4|reflexivity]. }
    apply (ex (firstn 7 demo_records) _ _ _ I7). exists (piece 1 0 141), [mkStep ISetVariable 1 []]. split; [reflexivity|]. split.
    + exists [piece 1 0 141], [Some (mkStep ISetVariable 1 [])]. split; [apply (CutMore (piece 1 0 141) [] []); [reflexivity|constructor]|]. split; [|reflexivity]. repeat constructor.
      exists 141. split; [reflexivity|]. split; [exact N141|]. split; [exists 9, [1], (skipn 3 (piece 1 0 141)); split; reflexivity|reflexivity].
    + apply (InsOne (mkStep ISetVariable 1 []) [] [mkStep ISetVariable 1 [lit "$x"; lit "$x"]] [mkStep IPerformScript 3 [lit "Run"]]); [reflexivity|constructor].
  - split.
    + exists [(1, firstn 10 (piece 5 0 103)); (2, skipn 10 (piece 5 0 103))]. split; [repeat constructor|]. split; [|reflexivity].
      intros i. unfold last_arrival. cbn -[piece firstn skipn N.eqb].
      destruct (N.eqb_spec 2 i) as [<-|H2]; [reflexivity|]. destruct (N.eqb_spec 1 i) as [<-|H1]; [reflexivity|].
      change (3 =? 3) with true. cbn [app filter fst]. rewrite (proj2 (N.eqb_neq 2 i)), (proj2 (N.eqb_neq 1 i)) by auto. reflexivity.
    + split; [|reflexivity]. exists [piece 5 0 103], [Some (mkStep IExitScript 5 [])]. split; [apply (CutMore (piece 5 0 103) [] []); [reflexivity|constructor]|]. split; [|reflexivity].
      repeat constructor. exists 103. split; [reflexivity|]. split; [exact N103|]. split; [exists 9, [5], (skipn 3 (piece 5 0 103)); split; reflexivity|reflexivity].
Qed.

(** C84: only the records in the directories of a script and the names of scripts matter for its steps. *)
Theorem C84_own_directories : forall order fuel buf f h order' fuel' buf' f' h' k sc sc', bytes buf -> bytes buf' ->
  (forall l, Permutation (order l) l) -> (forall l, Permutation (order' l) l) ->
  decompile order fuel buf = Ok f -> decompile order' fuel' buf' = Ok f' -> file_history buf 2 h -> file_history buf' 2 h' ->
  filter (step_matters k) h = filter (step_matters k) h' ->
  nget (f_scripts f) k = Some sc -> nget (f_scripts f') k = Some sc' -> sc = sc'.
Proof.
  intros order fuel buf f h order' fuel' buf' f' h' k sc sc' HB HB' PO PO' D D' F F' E G G'.
  destruct (C84_any_file _ _ _ _ _ HB PO D F _ _ G) as (S & _ & A1 & A2 & A3). destruct (C84_any_file _ _ _ _ _ HB' PO' D' F' _ _ G') as (S' & _ & B1 & B2 & B3).
  apply steps_matter in S, S'. rewrite E in S. pose proof (steps_of_det _ _ _ _ S S') as ES.
  destruct (C83_any_file _ _ _ _ HB D) as (g & Hg & U & R). destruct (C83_any_file _ _ _ _ HB' D') as (g' & Hg' & U' & R').
  apply U in F. apply U' in F'. subst h h'. pose proof (rec_scripts _ _ R k) as N. pose proof (rec_scripts _ _ R' k) as N'.
  rewrite G in N. rewrite G' in N'. cbn [option_map] in N, N'. rewrite <- (name_matters k) in N, N'. rewrite E in N. rewrite <- N' in N. injection N as N.
  destruct sc, sc'. cbn in *. congruence.
Qed.
Print Assumptions C84_own_directories.
Example C84_own_directories_ex :
  filter (step_matters 3) (demo_records ++ [put_at [17; 5; 4] 4 (piece 1 0 141); put_at [4; 1; 7; 3] 16 (lit "x")]) = filter (step_matters 3) demo_records /\
  lenN (filter (step_matters 3) demo_records) = 8.
Proof. split; vm_compute; reflexivity. Qed.

(** C84: in a file that can be decompiled, every parameter follows its step; a script whose code is in segments has no parameters. *)
Theorem C84_parameters : forall order fuel buf f h1 e h2 k i key, bytes buf -> (forall l, Permutation (order l) l) ->
  decompile order fuel buf = Ok f -> file_history buf 2 (h1 ++ e :: h2) ->
  (step_here e, key) = (SValue k i, 5) \/ (step_here e, key) = (SName k i, 1) \/ (step_here e, key) = (SCalc k i, 5) -> has_key key e = true ->
  exists l st, in_place k h1 l /\ In st l /\ step_index st = i.
Proof.
  intros order fuel buf f h1 e h2 k i key HB PO D F P K. destruct (decompile_steps _ _ _ _ HB PO D) as (h & F' & _ & I).
  rewrite <- (history_det _ _ _ F _ F') in I. destruct (I k) as (l & L). destruct (in_place_split _ _ _ _ _ L) as (l1 & l2 & L1 & C). exists l1.
  assert (G : exists adds, given i adds l1 l2).
  { unfold contributes in C. destruct P as [P|[P|P]]; injection P as P ->; rewrite P, K, N.eqb_refl in C; eexists; exact C. }
  destruct G as (adds & pre & st & post & ts & -> & E & _). exists st. split; [exact L1|]. split; [apply in_elt|exact E].
Qed.
Print Assumptions C84_parameters.
Example C84_parameters_ex : exists h1 e h2, demo_records = h1 ++ e :: h2 /\ step_here e = SCalc 3 1 /\ has_key 5 e = true /\ lenN h1 = 3.
Proof. exists (firstn 3 demo_records). eexists. eexists. split; [reflexivity|]. split; [reflexivity|split; reflexivity]. Qed.

(** C84: in a file that can be decompiled, no code in place leaves exactly 21 bytes after its whole pieces. *)
Theorem C84_left_over : forall order fuel buf f h e d k, bytes buf -> (forall l, Permutation (order l) l) ->
  decompile order fuel buf = Ok f -> file_history buf 2 h -> In e h ->
  step_here e = SCode k -> moves_path e = false -> segment_4 e = true \/ has_key 4 e = true -> cdata (snd e) = Some d -> lenN d mod 28 <> 21.
Proof.
  intros order fuel buf f h e d k HB PO D F IN P M K E. destruct (decompile_steps _ _ _ _ HB PO D) as (h' & F' & _ & I).
  rewrite <- (history_det _ _ _ F _ F') in I. destruct (I k) as (l & L). apply in_split in IN as (h1 & h2 & ->).
  destruct (in_place_split _ _ _ _ _ L) as (l1 & l2 & L1 & C). unfold contributes in C. rewrite P, N.eqb_refl, M in C. cbn [negb andb] in C.
  assert (B : segment_4 e || has_key 4 e = true) by (destruct K as [->| ->]; [reflexivity|apply orb_true_r]). rewrite B in C.
  destruct C as (d' & sts & E' & S & _). rewrite E in E'. injection E' as <-. exact (no_21 _ _ _ S).
Qed.
Print Assumptions C84_left_over.
Example C84_left_over_ex : let e := put_at [17; 5; 3] 4 (piece 1 0 141 ++ repeat 7 20) in
  step_here e = SCode 3 /\ moves_path e = false /\ has_key 4 e = true /\ lenN (piece 1 0 141 ++ repeat 7 20) mod 28 = 20.
Proof. repeat split. Qed.

(** C84: that a step calling a script shows the name the script has in the result is false: steps in place keep the name of their time. *)
Definition demo_rename : list AsmSpec.event :=
  within [17; 1; 1] [Enter 1; text_ev 16 (lit "A"); Leave; Enter 2; text_ev 16 (lit "B"); Leave] ++ within [17; 5; 1] [Put 4 (piece 1 2 1)] ++
  within [17; 1; 1; 2] [text_ev 16 (lit "C")].
Theorem C84_called_name_refuted : exists es f, f = mkFile [] [] [] [] []
    [(1, mkScript (lit "A") [] [] [] [mkStep IPerformScript 1 [lit "B"]]); (2, mkScript (lit "C") [] [] [] [])] [] [] [] /\
  (forall order fuel, (N.to_nat 4101 <= fuel)%nat -> order [] = [] -> decompile order fuel (file_of [es]) = Ok f) /\
  forall k sc, nget (f_scripts f) k = Some sc -> sc_name sc <> lit "B".
Proof.
  exists demo_rename. eexists. split; [reflexivity|]. split.
  - assert (E : run_streams [demo_rename] (mkD fmpfile_new [] []) =
      Ok (mkD (mkFile [] [] [] [] [] [(1, mkScript (lit "A") [] [] [] [mkStep IPerformScript 1 [lit "B"]]); (2, mkScript (lit "C") [] [] [] [])] [] [] []) [] []))
      by (vm_compute; reflexivity).
    witness E.
  - intros k sc. unfold nget. cbn [f_scripts mget]. destruct (1 =? k); [intros [= <-]; discriminate|]. destruct (2 =? k); [intros [= <-]; discriminate|discriminate].
Qed.
Print Assumptions C84_called_name_refuted.

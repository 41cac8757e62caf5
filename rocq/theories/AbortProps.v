(** C85: which files can be decompiled at all, and the tables of any file. *)
From Coq Require Import Ascii String NArith List Bool Lia Permutation.
From Verif Require Import Prelude PreludeFacts Utf8 EncodingModel CharConvModel ChunkModel InstrModel ComponentModel AsmSpec DecompModel DecompSpec DecompCalcSpec
  DecompScriptSpec DecompChain DecompStream DecompRecoverSpec DecompRecover4 DecompProps DecompRecoverProps HistorySpec History History2 History3 HistoryProps
  StepsSpec Steps Steps2 Steps3 StepsProps AbortSpec Abort Abort2 Abort3 Abort4.
Import ListNotations.
Local Open Scope N_scope.

(** C85: a file can be decompiled exactly if its sectors are there and its records fit together. *)
Theorem C85_exact : forall order buf, bytes buf -> (forall l, Permutation (order l) l) ->
  ((exists fuel f, decompile order fuel buf = Ok f) <-> decompilable buf) /\
  (decompilable buf -> exists f k, forall fuel, (k <= fuel)%nat -> decompile order fuel buf = Ok f).
Proof.
  intros order buf HB PO. split; [now apply decompile_exact|]. intros D. pose proof D as (L & (last & S & W) & h & F & O).
  destruct (decompile_run order _ _ _ HB L S W F) as (k & R).
  destruct (proj2 (records_decide order h PO ltac:(eapply history_bytes; eauto; lia)) O) as (f & G). exists f, k. intros fuel Hf. now rewrite R.
Qed.
Print Assumptions C85_exact.

(** C85: the records, here and for C83 and C84, are those the opcode table of C12 finds in the bytes. *)
Theorem C85_records : forall buf i h, bytes buf -> 2 <= lenN buf -> (file_history buf i h <-> file_records buf i h).
Proof. intros buf i h HB H2. now apply file_exact. Qed.
Print Assumptions C85_records.
(** One record: key 16 with two bytes, leaving the directory. *)
Example C85_records_ex : sector_records [0xC6; 16; 2; 7; 8; 0x20; 9] 7 0 [3; 4]
  [([3], mkChunk RefSimple 6 (Some [7; 8]) None [3] None (Some 16)); ([3; 9], mkChunk PathPush 0x20 (Some [9]) None [3; 9] None None)].
Proof.
  eapply SrNext; [reflexivity|split; [discriminate|do 3 eexists; repeat split; reflexivity]|].
  eapply SrNext; [reflexivity|split; [discriminate|do 3 eexists; repeat split; reflexivity]|]. constructor. discriminate.
Qed.

(** A file with tables, a field, a script in place and one in segments. *)
Definition demo_whole : list event :=
  within [3; 16; 5] [Enter 130; text_ev 16 (lit "T"); Leave] ++ within [130; 3; 5] [Enter 4; text_ev 16 (lit "f"); Leave] ++
  within [17; 1; 1] [Enter 1; text_ev 16 (lit "A"); Leave] ++ within [17; 5; 1] [Put 4 (piece 1 0 141)].
Definition demo_whole_file : fmpfile :=
  mkFile [] [(2, mkTable (lit "T") [] [] [(4, mkField [] [] (lit "f") [] [] [])] false)] [] [] [] [(1, mkScript (lit "A") [] [] [] [mkStep ISetVariable 1 []])] [] [] [].
Lemma demo_whole_runs : forall order fuel, (N.to_nat 4101 <= fuel)%nat -> order [] = [] -> decompile order fuel (file_of [demo_whole]) = Ok demo_whole_file.
Proof.
  assert (E : run_streams [demo_whole] (mkD fmpfile_new [] []) = Ok (mkD demo_whole_file [] [])) by (vm_compute; reflexivity).
  witness E.
Qed.
Ltac by_bytes :=
  let x := fresh in let Hx := fresh in
  apply Forall_forall; intros x Hx; apply N.ltb_lt; revert x Hx; apply forallb_forall; vm_compute; reflexivity.
(** The same without the name of the script. *)
Definition demo_nameless : list event := within [17; 5; 1] [Put 4 (piece 1 0 141)].
Lemma demo_nameless_ok : chain_ok [demo_nameless].
Proof.
  split; [constructor; [reflexivity|constructor]|constructor; [|constructor]; split; [|small]].
  repeat (constructor; [first [exact I | split; [small|split; [vm_compute; repeat constructor|small]] | split; [vm_compute; repeat constructor|split; small]]|]); constructor.
Qed.
Lemma demo_nameless_stops : forall order fuel, (N.to_nat 4101 <= fuel)%nat -> decompile order fuel (file_of [demo_nameless]) = Panic.
Proof.
  assert (E : run_streams [demo_nameless] (mkD fmpfile_new [] []) = Panic) by (vm_compute; reflexivity).
  intros order fuel Hf. rewrite decompile_file; [rewrite E; reflexivity|discriminate|exact demo_nameless_ok|reflexivity|cbn [length]; lia].
Qed.
Example C85_exact_ex : bytes (file_of [demo_whole]) /\ decompilable (file_of [demo_whole]) /\ bytes (file_of [demo_nameless]) /\ ~ decompilable (file_of [demo_nameless]).
Proof.
  assert (B1 : bytes (file_of [demo_whole])) by by_bytes. assert (B2 : bytes (file_of [demo_nameless])) by by_bytes.
  split; [exact B1|]. split; [|split; [exact B2|]].
  - apply (C85_exact (fun l => l) _ B1 (fun l => Permutation_refl l)). exists (N.to_nat 4101), demo_whole_file. apply demo_whole_runs; [lia|reflexivity].
  - intros D. apply (C85_exact (fun l => l) _ B2 (fun l => Permutation_refl l)) in D as (f & k & H). specialize (H (Nat.max k (N.to_nat 4101)) (PeanoNat.Nat.le_max_l _ _)).
    rewrite demo_nameless_stops in H by apply PeanoNat.Nat.le_max_r. discriminate.
Qed.

(** C85: a file whose sectors are there and can be read, but with records that do not fit together, stops the program. *)
Theorem C85_unfit : forall order buf last h, bytes buf -> (forall l, Permutation (order l) l) ->
  4096 + 20 <= lenN buf -> sector_next buf 1 last -> stays buf last 2 -> file_history buf 2 h ->
  ~ ((forall h1 e h2, h = h1 ++ e :: h2 -> record_ok h1 e) /\ segments_ok h) ->
  exists k, forall fuel, (k <= fuel)%nat -> decompile order fuel buf = Panic.
Proof.
  intros order buf last h HB PO L S W F NO. destruct (decompile_settled order buf last h HB PO L S W F) as (k & H). exists k. intros fuel Hf. now apply (H fuel Hf).
Qed.
Print Assumptions C85_unfit.
(** Records that do not fit, and what they would need before them. *)
Example C85_unfit_ex :
  let name t := put_at [3; 16; 5; t] 16 (fm_string_encrypt (lit "T")) in
  let fname := put_at [130; 3; 5; 4] 16 (fm_string_encrypt (lit "f")) in
  ~ record_ok [] (name 130) /\ record_ok [enter_at [3; 16; 5; 130]] (name 130) /\ ~ record_ok [enter_at [3; 16; 5; 130]] (name 2) /\
  ~ record_ok [enter_at [3; 16; 5; 130]] fname /\ record_ok [enter_at [130; 3; 5; 4]] fname /\
  ~ record_ok [enter_at [130; 3; 5; 4]; enter_at [3; 16; 5; 130]] fname /\
  ~ record_ok [] (enter_at [3; 16; 5; 2]) /\ record_ok [enter_at [3; 16; 5; 130]] (enter_at [3; 16; 5; 2]) /\
  ~ record_ok [] (put_at [3; 17; 5; 0] 16 [1]) /\ record_ok [put_at [3; 17; 5; 0] 2 [0; 0; 0; 0; 0; 0; 9]] (put_at [3; 17; 5; 0] 16 [1]) /\
  ~ record_ok [] (put_at [3; 251; 5; 1; 3] 1 [4; 0; 252; 3; 0; 252]) /\ record_ok [] (put_at [3; 251; 5; 1; 3] 1 [4; 0; 252; 3; 0; 252; 7]) /\
  ~ record_ok [] (segment_at [17; 5; 3; 4] 1 [1]) /\ record_ok [enter_at [17; 5; 3; 4]] (segment_at [17; 5; 3; 4] 1 [1]).
Proof.
  assert (OK : forall h e, schema_ok h e -> step_here e = SOther -> record_ok h e) by (intros h e A B; split; [exact A|]; unfold steps_ok; rewrite B; exact I).
  cbn beta zeta. repeat match goal with |- _ /\ _ => split end.
  - intros [H _]. vm_compute in H. destruct (H eq_refl) as [_ X]. discriminate.
  - apply OK; [|reflexivity]. vm_compute. split; [discriminate|reflexivity].
  - intros [H _]. vm_compute in H. destruct (H eq_refl) as [X _]. now contradiction X.
  - intros [H _]. vm_compute in H. apply H; try reflexivity. discriminate.
  - apply OK; [|reflexivity]. vm_compute. discriminate.
  - intros [H _]. vm_compute in H. apply H; try reflexivity. discriminate.
  - intros [H _]. vm_compute in H. destruct H as [H|H]; [discriminate|now apply H].
  - apply OK; [|reflexivity]. vm_compute. left. reflexivity.
  - intros [H _]. vm_compute in H. destruct H as [_ H]. specialize (H eq_refl). discriminate.
  - apply OK; [|reflexivity]. vm_compute. split; [discriminate|reflexivity].
  - intros [H _]. destruct (H eq_refl) as (c & x & a1 & a2 & y & b1 & b2 & rest & E & _). cbn in E. discriminate.
  - apply OK; [|reflexivity]. intros _. exists 4, 0, 252, 3, 0, 252, 7, []. split; [reflexivity|]. vm_compute. split; discriminate.
  - intros [_ H]. vm_compute in H. destruct (H eq_refl) as (_ & _ & X). discriminate.
  - split; [exact I|]. vm_compute. repeat split; discriminate.
Qed.

(** C85: a file in which every record moves on and whose chain ends either can be decompiled or stops the program. *)
Theorem C85_stops : forall order buf, bytes buf -> (forall l, Permutation (order l) l) -> no_stuck buf -> ends buf 2 -> ~ decompilable buf ->
  exists k, forall fuel, (k <= fuel)%nat -> decompile order fuel buf = Panic.
Proof. exact unreadable_aborts. Qed.
Print Assumptions C85_stops.
(** Three sectors of zeroes: sector 1 names sector 0 as the last one. *)
Example C85_stops_ex : let buf := zeros 8192 ++ zeros 4096 in bytes buf /\ no_stuck buf /\ ends buf 2 /\ ~ decompilable buf.
Proof.
  intros buf. destruct chain_end_terminates_ex as (B & NS & E). split; [exact B|]. split; [exact NS|]. split; [exact E|].
  intros (_ & (last & S & W) & _). assert (S0 : sector_next buf 1 0) by (exists [0; 0; 0; 0]; split; vm_compute; reflexivity).
  rewrite (succ_det _ _ _ _ S S0) in W. inversion W as [|? ? ? X]; subst. revert X. vm_compute. intros X. now apply X.
Qed.

(** C85: whether a file can be decompiled does not depend on the order in which the scripts are built. *)
Theorem C85_any_order : forall order order' fuel buf f, bytes buf -> (forall l, Permutation (order l) l) -> (forall l, Permutation (order' l) l) ->
  decompile order fuel buf = Ok f -> exists f' k, forall fuel', (k <= fuel')%nat -> decompile order' fuel' buf = Ok f'.
Proof.
  intros order order' fuel buf f HB PO PO' D. apply (C85_exact order' buf HB PO'). apply (C85_exact order buf HB PO). eauto.
Qed.
Print Assumptions C85_any_order.
Example C85_any_order_ex : bytes (file_of [demo_whole]) /\ (forall l : list (N * list (N * list N)), Permutation (rev l) l) /\
  decompile (@rev _) (N.to_nat 4101) (file_of [demo_whole]) = Ok demo_whole_file.
Proof. split; [by_bytes|]. split; [intros l; symmetry; apply Permutation_rev|]. apply demo_whole_runs; [lia|reflexivity]. Qed.

(** C85: all tables and fields of a file that can be decompiled, whatever their numbers. *)
Theorem C85_tables : forall order fuel buf f h, bytes buf -> decompile order fuel buf = Ok f -> file_history buf 2 h -> tables_recovered h f.
Proof.
  intros order fuel buf f h HB D F. destruct (decompile_tables _ _ _ _ HB D) as (h' & F' & T). rewrite (history_det _ _ _ F _ F'). exact T.
Qed.
Print Assumptions C85_tables.
(** Table 2 entered again loses its name and field; not when there is a table 130. *)
Example C85_tables_ex :
  let again t := enter_at [3; 16; 5; t] in
  let h := [enter_at [130; 3; 5; 4]; put_at [130; 3; 5; 4] 16 (fm_string_encrypt (lit "f")); put_at [3; 16; 5; 130] 16 (fm_string_encrypt (lit "T"))] in
  table_there 2 h = true /\ table_name_in 2 h = lit "T" /\ field_in 2 4 h = Some (mkField [] [] (lit "f") [] [] []) /\
  table_there 2 (h ++ [again 130]) = true /\ table_name_in 2 (h ++ [again 130]) = [] /\ field_in 2 4 (h ++ [again 130]) = None /\
  table_name_in 2 (h ++ [again 258; again 130]) = lit "T" /\ field_in 2 4 (h ++ [again 258; again 130]) = field_in 2 4 h /\
  table_there 130 (h ++ [again 258; again 130]) = true.
Proof. vm_compute. repeat split. Qed.

(** C85: that a file of whole sectors with well-formed records can be decompiled is false: the code of a script without a name. *)
Theorem C85_well_formed_refuted : exists es, chain_ok [es] /\ bytes (file_of [es]) /\
  forall order fuel, (N.to_nat 4101 <= fuel)%nat -> decompile order fuel (file_of [es]) = Panic.
Proof. exists demo_nameless. split; [exact demo_nameless_ok|]. split; [by_bytes|]. exact demo_nameless_stops. Qed.
Print Assumptions C85_well_formed_refuted.

(** C85: that a field stored in the file is in the result is false: the directory of its table, following it, starts the table anew. *)
Definition demo_restart : list event := within [130; 3; 5] [Enter 4; text_ev 16 (lit "f"); Leave] ++ within [3; 16; 5] [Enter 130; text_ev 16 (lit "T"); Leave].
Theorem C85_field_kept_refuted : exists es, In (text_ev 16 (lit "f")) es /\
  forall order fuel, (N.to_nat 4101 <= fuel)%nat -> order [] = [] ->
  decompile order fuel (file_of [es]) = Ok (mkFile [] [(2, mkTable (lit "T") [] [] [] false)] [] [] [] [] [] [] []).
Proof.
  exists demo_restart. split; [cbn; tauto|].
  assert (E : run_streams [demo_restart] (mkD fmpfile_new [] []) = Ok (mkD (mkFile [] [(2, mkTable (lit "T") [] [] [] false)] [] [] [] [] [] [] []) [] [])) by (vm_compute; reflexivity).
  witness E.
Qed.
Print Assumptions C85_field_kept_refuted.

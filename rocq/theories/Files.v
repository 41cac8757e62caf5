(** Proofs about the files left behind; the theorems are in FilesProps.v. *)
From Coq Require Import Ascii String NArith List Bool Lia Permutation.
From Verif Require Import Prelude PreludeFacts Utf8 Utf8Facts ComponentModel CalcModel EvalModel DecompModel SchemaModel JsonModel JsonSpec Json AsmSpec VmTextSpec RunsSpec MainModel MainSpec SessionSpec FilesModel FilesSpec.
Import ListNotations.
Local Open Scope N_scope.

(** ** The disk after a list of events *)
Section Disk.
Variable order : fmpfile -> fmpfile.
Variable inspect : list N.

Definition writes (e : event) (p : list N) : option (list N) :=
  match e with
  | EInspect f => if str_eqb inspect p then Some (utf8 (inspect_text (order f))) else None
  | EWritten n c => if str_eqb n p then Some c else None
  | _ => None
  end.

Lemma write_one d e p : sget (write_event order inspect d e) p = match writes e p with Some c => Some c | None => sget d p end.
Proof.
  assert (K : forall n c, sget (sset d n c) p = if str_eqb n p then Some c else sget d p).
  { intros n c. apply sget_sset. }
  destruct e; cbn [write_event writes]; try reflexivity; rewrite K; destruct str_eqb; reflexivity.
Qed.

Lemma disk_none es d p : (forall e, In e es -> writes e p = None) -> sget (disk_after order inspect es d) p = sget d p.
Proof.
  revert d. induction es as [| e es IH]; intros d H; [reflexivity |]. change (disk_after order inspect (e :: es) d) with (disk_after order inspect es (write_event order inspect d e)).
  rewrite IH by (intros; apply H; right; assumption). rewrite write_one, (H e) by (left; reflexivity). reflexivity.
Qed.
Lemma disk_app es es' d : disk_after order inspect (es ++ es') d = disk_after order inspect es' (disk_after order inspect es d).
Proof. apply fold_left_app. Qed.
Lemma disk_some before e after d p c : writes e p = Some c -> (forall e, In e after -> writes e p = None) -> sget (disk_after order inspect (before ++ e :: after) d) p = Some c.
Proof.
  intros He Ha. rewrite disk_app. change (disk_after order inspect (e :: after) ?x) with (disk_after order inspect after (write_event order inspect x e)).
  rewrite disk_none by exact Ha. rewrite write_one, He. reflexivity.
Qed.
End Disk.

(** ** What sessions write *)
Lemma shows_quiet rs : (forall f, ~ In (EInspect f) (shows rs)) /\ (forall n c, ~ In (EWritten n c) (shows rs)).
Proof. induction rs as [| r rs [A B]]; split; intros; cbn; intuition (try discriminate); first [eapply A; eassumption | eapply B; eassumption]. Qed.
Lemma tests_quiet E nt g es ok : tests_end E nt g es ok -> (forall f, ~ In (EInspect f) es) /\ (forall n c, ~ In (EWritten n c) es).
Proof.
  intros T. destruct T as [K | s rs s1 K1 K2 K3 K4 K5 | K1 K2 K3 | s b t a rs s1 K1 K2 K3 K4 K5 K6]; try (split; intros; intros []).
  - apply shows_quiet.
  - destruct (shows_quiet rs) as [A B]. split; intros; intros H; apply in_app_or in H; destruct H as [H | [H | []]]; try discriminate; [eapply A; eassumption | eapply B; eassumption].
Qed.

Definition burn (n : list N) : list N := n ++ lit ".burn".
Definition fmp12 (n : list N) : list N := n ++ lit ".fmp12".
Lemma burn_inj a b : burn a = burn b -> a = b.
Proof. apply app_inv_tail. Qed.
Lemma fmp12_inj a b : fmp12 a = fmp12 b -> a = b.
Proof. apply app_inv_tail. Qed.

Lemma compiled_written E nt ts done inputs es last : compiles E nt ts done inputs es last ->
  forall n c, In (EWritten n c) es -> exists name code, In (burn name, code) inputs /\ n = fmp12 name.
Proof.
  induction 1 as [done f C | | | done name code f g g' reports inputs X C N R T | done name code f g g' reports inputs X C N R T F | done name code f g g' reports inputs es last X C N R T F S IH];
    intros n c Hi; try destruct Hi as [Hi | Hi]; try discriminate; try contradiction.
  - destruct (proj2 (tests_quiet _ _ _ _ _ T) _ _ Hi).
  - destruct (proj2 (tests_quiet _ _ _ _ _ T) _ _ Hi).
  - apply in_app_or in Hi. destruct Hi as [Hi | [Hi | Hi]].
    + destruct (proj2 (tests_quiet _ _ _ _ _ T) _ _ Hi).
    + injection Hi as <- _. exists name, code. split; [left; reflexivity | reflexivity].
    + destruct (IH _ _ Hi) as (m & cd & A & B). exists m, cd. split; [right; exact A | exact B].
Qed.

Lemma compiled_all E nt ts done inputs es last : compiles E nt ts done inputs es last -> forall f0, last = Some f0 ->
  exists fs, Forall2 (fun i t => schema_text E (snd i) t) inputs fs /\
    (forall before name code, inputs = before ++ [(burn name, code)] ->
       exists g e1 e2, collected ts (done ++ fs) g /\ f_name g = name /\ es = e1 ++ EInspect g :: e2 /\ (forall h, ~ In (EInspect h) e2)) /\
    (forall before name code after, inputs = before ++ (burn name, code) :: after -> Forall (fun i => fst i <> burn name) after ->
       exists fs1 g g' e1 e2, Forall2 (fun i t => schema_text E (snd i) t) (before ++ [(burn name, code)]) fs1 /\ collected ts (done ++ fs1) g /\ f_name g = name /\ reordered g g' /\ fits g' /\
         es = e1 ++ EWritten (fmp12 name) (image g') :: e2 /\ (forall c, ~ In (EWritten (fmp12 name) c) e2)) /\
    (forall i, In i inputs -> exists name, fst i = burn name).
Proof.
  induction 1 as [done f C | | | | | done name code f g g' reports inputs es last X C N R T F S IH]; intros f0 L; try discriminate.
  - exists []. split; [constructor |]. split; [intros before name code H; destruct before; discriminate |].
    split; [intros before name code after H; destruct before; discriminate | intros i []].
  - destruct (IH f0 L) as (fs & FS & HI & HW & HN). exists (f :: fs). split; [constructor; assumption |].
    split; [| split].
    + intros before name' code' H. destruct before as [| i before]; cbn [app] in H.
      * injection H as H1 <- ->. apply burn_inj in H1. subst name'. inversion FS; subst fs. inversion S; subst.
        exists g, [], (reports ++ [EWritten (f_name g ++ lit ".fmp12") (image g')]). split; [exact C |]. split; [reflexivity |]. split; [reflexivity |].
        intros h Hh. apply in_app_or in Hh. destruct Hh as [Hh | [Hh | []]]; [apply (proj1 (tests_quiet _ _ _ _ _ T) _ Hh) | discriminate].
      * injection H as <- ->. destruct (HI before name' code' eq_refl) as (g1 & e1 & e2 & A & B & -> & D).
        exists g1, (EInspect g :: reports ++ EWritten (name ++ lit ".fmp12") (image g') :: e1), e2.
        rewrite <- app_assoc in A. split; [exact A |]. split; [exact B |]. split; [cbn [app]; rewrite <- app_assoc; reflexivity | exact D].
    + intros before name' code' after H Ha. destruct before as [| i before]; cbn [app] in H.
      * injection H as H1 <- ->. apply burn_inj in H1. subst name'. exists [f], g, g', (EInspect g :: reports), es.
        split; [constructor; [assumption | constructor] |]. split; [exact C |]. split; [exact N |]. split; [exact R |]. split; [exact F |]. split; [reflexivity |].
        intros c Hc. destruct (compiled_written _ _ _ _ _ _ _ S _ _ Hc) as (m & cd & Hin & Hm). apply fmp12_inj in Hm. subst m.
        rewrite Forall_forall in Ha. apply (Ha _ Hin). reflexivity.
      * injection H as <- ->. destruct (HW before name' code' after eq_refl Ha) as (fs1 & g1 & g1' & e1 & e2 & A0 & A & B & B1 & B2 & -> & D).
        exists (f :: fs1), g1, g1', (EInspect g :: reports ++ EWritten (name ++ lit ".fmp12") (image g') :: e1), e2.
        rewrite <- app_assoc in A. split; [constructor; assumption |]. split; [exact A |]. split; [exact B |]. split; [exact B1 |]. split; [exact B2 |].
        split; [cbn [app]; rewrite <- app_assoc; reflexivity | exact D].
    + intros i [<- | Hi]; [exists name; reflexivity | auto].
Qed.

Lemma decompiled_all E nt ts done inputs es last : decompiles E nt ts done inputs es last ->
  (forall n c, ~ In (EWritten n c) es) /\
  forall f0 before i, last = Some f0 -> inputs = before ++ [i] ->
    exists f e1 e2, stored_file (snd i) f /\ es = e1 ++ EInspect f :: e2 /\ (forall h, ~ In (EInspect h) e2).
Proof.
  induction 1 as [done f C | done name buf inputs D | done name buf f g g' reports inputs S C R T | done name buf f g g' reports inputs es last S C R T D [IH1 IH2]].
  - split; [intros n c [] |]. intros f0 before i _ H. destruct before; discriminate.
  - split; [intros n c [] |]. intros f0 before i H. discriminate.
  - split; [| intros f0 before i H; discriminate]. intros n c [H | H]; [discriminate | destruct (proj2 (tests_quiet _ _ _ _ _ T) _ _ H)].
  - split.
    + intros n c [H | H]; [discriminate |]. apply in_app_or in H. destruct H as [H | H]; [destruct (proj2 (tests_quiet _ _ _ _ _ T) _ _ H) | eapply IH1; eassumption].
    + intros f0 before i L H. destruct before as [| j before]; cbn [app] in H.
      * injection H as <- ->. inversion D; subst. exists f, [], (reports ++ []). rewrite app_nil_r. split; [exact S |]. split; [reflexivity |].
        intros h Hh. apply (proj1 (tests_quiet _ _ _ _ _ T) _ Hh).
      * injection H as <- ->. destruct (IH2 f0 before i L eq_refl) as (f1 & e1 & e2 & A & -> & B).
        exists f1, (EInspect f :: reports ++ e1), e2. split; [exact A |]. split; [cbn [app]; rewrite <- app_assoc; reflexivity | exact B].
Qed.

(** ** The JSON of a reordered schema *)
Lemma unicode_reordered f g : reordered f g -> unicode_file f -> unicode_file g.
Proof.
  intros (N & P1 & P2 & P3 & P4 & P5 & P6 & P7 & T) (U1 & U2 & U3 & U4 & U5 & U6 & U7 & U8 & U9). unfold unicode_file. rewrite N, T.
  split; [exact U1 |]. split; [exact (Permutation_Forall P1 U2) |]. split; [exact (Permutation_Forall P2 U3) |]. split; [exact (Permutation_Forall P3 U4) |].
  split; [exact (Permutation_Forall P4 U5) |]. split; [exact (Permutation_Forall P5 U6) |]. split; [exact (Permutation_Forall P6 U7) |].
  split; [exact (Permutation_Forall P7 U8) | exact U9].
Qed.
Lemma order_shows order f : reordered f (order f) -> unicode_file f -> shows_schema f (utf8 (inspect_text (order f))).
Proof.
  intros R U. exists (order f), (inspect_text (order f)), (file_json (order f)). split; [exact R |]. split; [reflexivity |].
  split; [apply inspect_json; apply (unicode_reordered f); assumption | apply file_says].
Qed.

(** ** Copies of the files *)
Section Headed.
Context (E : fenv).
Variable order : fmpfile -> fmpfile.
Variable segments : list (N * list (N * list N)) -> list (N * list (N * list N)).
Variable fuel : nat.
Variable nt : bool.

Notation one := (decompile_one E order segments fuel nt).
Notation one_headed := (decompile_one_headed E order segments fuel nt).

Lemma and_then_quiet {A B} (x : ran A) (k : A -> ran B) n c : ~ In (EWritten n c) (fst x) -> (forall a, ~ In (EWritten n c) (fst (k a))) -> ~ In (EWritten n c) (fst (and_then x k)).
Proof. intros X K. unfold and_then. destruct (snd x) as [a | |]; cbn [fst]; try exact X. intros H. apply in_app_or in H. destruct H as [H | H]; [exact (X H) | exact (K a H)]. Qed.
Lemma lift_quiet {A} (x : outcome A) n c : ~ In (EWritten n c) (fst (lift x)).
Proof. intros []. Qed.
Lemma print_quiet n c file ts : forall s, ~ In (EWritten n c) (fst (print_tests E fuel file ts s)).
Proof.
  induction ts as [| t ts IH]; intros s; [apply lift_quiet |]. cbn [print_tests].
  apply and_then_quiet; [intros [H | []]; discriminate |]. intros _. apply and_then_quiet; [apply lift_quiet |]. intros s'.
  apply and_then_quiet; [intros [H | []]; discriminate |]. intros _. apply IH.
Qed.
Lemma one_quiet n c f i : ~ In (EWritten n c) (fst (one f i)).
Proof.
  unfold decompile_one. apply and_then_quiet; [apply lift_quiet |]. intros tmp. apply and_then_quiet; [intros [H | []]; discriminate |]. intros _.
  apply and_then_quiet; [| intros _; apply lift_quiet]. unfold testing. destruct (_ && _); [| apply lift_quiet].
  apply and_then_quiet; [apply lift_quiet |]. intros s. apply and_then_quiet; [apply print_quiet | intros _; apply lift_quiet].
Qed.

(** The events of a run with copies, without the copies. *)
Definition no_copy (e : event) : bool := match e with EWritten _ _ => false | _ => true end.
Lemma no_copy_id es : (forall n c, ~ In (EWritten n c) es) -> filter no_copy es = es.
Proof.
  induction es as [| e es IH]; intros H; [reflexivity |]. cbn [filter]. destruct e as [f | t | t b | n c]; cbn [no_copy]; try (rewrite IH; [reflexivity | intros n c Hi; apply (H n c); right; exact Hi]).
  destruct (H n c). left. reflexivity.
Qed.

Lemma headed_loop inputs : forall f, snd (for_inputs one_headed inputs f) = snd (for_inputs one inputs f) /\
  filter no_copy (fst (for_inputs one_headed inputs f)) = fst (for_inputs one inputs f) /\
  (inputs <> [] -> exists before i after e1 e2, inputs = before ++ i :: after /\ fst (for_inputs one_headed inputs f) = e1 ++ EWritten (lit "header.log") (snd i) :: e2 /\
     (forall n c, ~ In (EWritten n c) e2) /\
     (exists g, snd (for_inputs one before f) = Ok g) /\ (after = [] \/ forall g, snd (for_inputs one (before ++ [i]) f) <> Ok g)).
Proof.
  induction inputs as [| i rest IH]; intros f.
  - split; [reflexivity |]. split; [reflexivity |]. intros H. destruct (H eq_refl).
  - assert (Q := fun n c => one_quiet n c f i).
    cbn [for_inputs]. unfold and_then. change (snd (one_headed f i)) with (snd (one f i)). change (fst (one_headed f i)) with (EWritten (lit "header.log") (snd i) :: fst (one f i)).
    destruct (snd (one f i)) as [f1 | |] eqn:H1; cbn [fst snd].
    + destruct (IH f1) as (A & B & C). split; [exact A |]. split.
      * change (filter no_copy ((EWritten (lit "header.log") (snd i) :: fst (one f i)) ++ fst (for_inputs one_headed rest f1))) with
          (filter no_copy (fst (one f i) ++ fst (for_inputs one_headed rest f1))).
        rewrite filter_app, B, no_copy_id by exact Q. reflexivity.
      * intros _. destruct rest as [| j rest].
        -- exists [], i, [], [], (fst (one f i)). cbn. rewrite app_nil_r. split; [reflexivity |]. split; [reflexivity |]. split; [exact Q |]. split; [eexists; reflexivity | left; reflexivity].
        -- destruct (C ltac:(discriminate)) as (before & k & after & e1 & e2 & -> & -> & D & (g & G) & K).
           exists (i :: before), k, after, (EWritten (lit "header.log") (snd i) :: fst (one f i) ++ e1), e2.
           split; [reflexivity |]. split; [cbn [app]; rewrite <- app_assoc; reflexivity |]. split; [exact D |]. split.
           ++ exists g. cbn [for_inputs]. unfold and_then. rewrite H1. exact G.
           ++ destruct K as [K | K]; [left; exact K | right]. intros h. cbn [app for_inputs]. unfold and_then. rewrite H1. apply K.
    + split; [reflexivity |]. split; [cbn [filter no_copy]; apply no_copy_id; exact Q |]. intros _. exists [], i, rest, [], (fst (one f i)).
      split; [reflexivity |]. split; [reflexivity |]. split; [exact Q |]. split; [eexists; reflexivity |]. right. intros g. cbn. unfold and_then. rewrite H1. discriminate.
    + split; [reflexivity |]. split; [cbn [filter no_copy]; apply no_copy_id; exact Q |]. intros _. exists [], i, rest, [], (fst (one f i)).
      split; [reflexivity |]. split; [reflexivity |]. split; [exact Q |]. split; [eexists; reflexivity |]. right. intros g. cbn. unfold and_then. rewrite H1. discriminate.
Qed.
End Headed.

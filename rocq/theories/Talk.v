(** The lines that calculations print. *)
From Coq Require Import Ascii String NArith ZArith List Bool Lia Arith.
From Verif Require Import Prelude PreludeFacts StrOrder StrOrderFacts Utf8 CalcModel CalcSpec CalcFacts CalcParse CalcEnds CalcProps LexSpec LexProofs DbModel EvalModel EvalSpec
  EvalProofs EvalCycle EvalFuel TreeSpec Tree TreeProps TokensSpec Tokens TokensProps PhraseSpec PhraseProps ComponentModel InstrModel VmModel PrintModel TalkModel TalkSpec.
Import ListNotations.
Local Open Scope N_scope.

Section P.
Context (E : fenv).
Notation node := (node (f64 E)).
Notation told := (told E).

Lemma tell_snd {A B} (x : told A) (k : A -> told B) : snd (and_tell E x k) = bind (snd x) (fun a => snd (k a)).
Proof. unfold and_tell. destruct (snd x); reflexivity. Qed.
Lemma tell_ok {A B} (x : told A) (k : A -> told B) l r : and_tell E x k = (l, Ok r) ->
  exists l1 a l2, x = (l1, Ok a) /\ k a = (l2, Ok r) /\ l = l1 ++ l2.
Proof.
  unfold and_tell. destruct x as [l1 [a| |]]; cbn [fst snd]; intros H; inversion H. exists l1, a, (fst (k a)). split; [reflexivity|]. split; [|reflexivity].
  destruct (k a); cbn in *; congruence.
Qed.
Lemma quiet_ok {A} (x : outcome A) l r : quiet E x = (l, Ok r) -> l = [] /\ x = Ok r.
Proof. intros H. inversion H. auto. Qed.

(** ** The lines change nothing. *)
Lemma lex_snd : forall f s b ts, snd (lex_told E f s b ts) = lex_loop E f s b ts.
Proof.
  induction f as [|f IH]; intros s b ts; [reflexivity|]. destruct s as [|c s]; [reflexivity|]. cbn [lex_told lex_loop].
  destruct (whitespace c && _); [apply IH|]. destruct (c =? 32).
  { rewrite tell_snd. cbn [quiet snd]. destruct (flush E b ts); cbn [bind]; auto. }
  destruct (single c). { rewrite tell_snd. cbn [quiet snd]. destruct (flush E b ts); cbn [bind]; auto. }
  destruct (c =? 33). { rewrite tell_snd. cbn [quiet snd]. destruct (flush E b ts); cbn [bind]; auto. destruct s as [|d s']; [reflexivity|]. destruct (d =? 61); auto. }
  destruct (c =? 61). { rewrite tell_snd. cbn [quiet snd]. destruct (flush E b ts); cbn [bind]; auto. destruct s as [|d s']; [reflexivity|]. auto. }
  destruct (c =? 60). { rewrite tell_snd. cbn [quiet snd]. destruct (flush E b ts); cbn [bind]; auto. destruct s as [|d s']; [reflexivity|]. auto. }
  destruct (c =? 62). { rewrite tell_snd. cbn [quiet snd]. destruct (flush E b ts); cbn [bind]; auto. destruct s as [|d s']; [reflexivity|]. auto. }
  destruct (c =? 34). { rewrite tell_snd. cbn [quiet snd]. destruct (flush E b ts); cbn [bind]; auto. destruct (read_string s) as [qa qr]. auto. }
  destruct (c =? 58); [|apply IH]. rewrite tell_snd. cbn [tells snd bind]. destruct (read_name E (tl s)) as [qa qr].
  destruct s as [|d s']; [apply IH|]. destruct (d =? 58); apply IH.
Qed.

Section V.
Context (v : view).
Lemma operand_snd : forall f s, snd (operand_told E v f s) = get_operand_val E v f s.
Proof.
  induction f as [|f IH]; intros s; [reflexivity|]. cbn [operand_told get_operand_val]. destruct (parse64 E s); [reflexivity|]. destruct (quoted s); [reflexivity|].
  assert (V : snd (and_tell E (quiet E (current_scope v)) (fun vars => match sget vars s with None => and_tell E (tells E [SUnknown s]) (fun _ => quiet E (Ok (OText, []))) | Some w => operand_told E v f w end)) =
    bind (current_scope v) (fun vars => match sget vars s with None => Ok (OText, []) | Some w => get_operand_val E v f w end)).
  { rewrite tell_snd. cbn [quiet snd]. destruct (current_scope v) as [sc| |]; cbn [bind]; auto. destruct (sget sc s); [apply IH|reflexivity]. }
  destruct (split s) as [|a [|b [|c l]]]; try exact V. rewrite tell_snd. cbn [quiet snd]. destruct (get_found_set_record_field (vw_db v) b); cbn [bind]; auto.
Qed.
Lemma text_snd f s : snd (text_told E v f s) = operand_text E v f s.
Proof. unfold text_told, operand_text, operand. rewrite tell_snd, operand_snd. destruct (get_operand_val E v f s) as [[t r]| |]; reflexivity. Qed.
Lemma min_snd f x y : snd (min_told E v f x y) = min_order E v f x y.
Proof.
  unfold min_told, min_order, operand. rewrite tell_snd, operand_snd. destruct (get_operand_val E v f x) as [a| |]; cbn [bind]; auto.
  rewrite tell_snd, operand_snd. destruct (get_operand_val E v f y) as [b| |]; reflexivity.
Qed.
Lemma arithmetic_snd g a b : snd (arithmetic_told E g a b) = arithmetic E g a b.
Proof. unfold arithmetic_told. rewrite tell_snd. reflexivity. Qed.

Definition least_told (f : nat) := fix least (best : list N) (l : list node) : told (list N) :=
  match l with
  | [] => quiet E (Ok best)
  | y :: l => and_tell E (evaluate_told E v f y) (fun t => and_tell E (min_told E v f best t) (fun o => least (match o with Gt => t | _ => best end) l))
  end.
Lemma min_told_eq f a rest : evaluate_told E v f (NCall (lit "Min") (a :: rest)) = and_tell E (evaluate_told E v f a) (fun s => least_told f s rest).
Proof. reflexivity. Qed.

Lemma evaluate_snd f : forall n, snd (evaluate_told E v f n) = evaluate E v f n.
Proof.
  fix IH 1. intros [value c|l op r0|l r0|l op r0|l op r0|name args|x|name|name|s]; try reflexivity; try apply text_snd.
  - rewrite binary_eq. cbn [evaluate_told]. rewrite tell_snd, IH. destruct (evaluate E v f l) as [a| |]; cbn [bind]; auto.
    rewrite tell_snd, IH. destruct (evaluate E v f r0) as [b| |]; cbn [bind]; auto. rewrite tell_snd, operand_snd. unfold operand.
    destruct (get_operand_val E v f a) as [ta| |]; cbn [bind]; auto. rewrite tell_snd, operand_snd. destruct (get_operand_val E v f b) as [tb| |]; cbn [bind]; auto.
    destruct op; try reflexivity; apply arithmetic_snd.
  - cbn [evaluate_told evaluate]. rewrite tell_snd, IH. destruct (evaluate E v f l) as [a| |]; cbn [bind]; auto.
    rewrite tell_snd, IH. destruct (evaluate E v f r0) as [b| |]; reflexivity.
  - assert (Q : snd (and_tell E (evaluate_told E v f l) (fun a => and_tell E (evaluate_told E v f r0) (fun b => quiet E (compare_texts op a b)))) =
      bind (evaluate E v f l) (fun a => bind (evaluate E v f r0) (fun b => compare_texts op a b))).
    { rewrite tell_snd, IH. destruct (evaluate E v f l) as [a| |]; cbn [bind]; auto. rewrite tell_snd, IH. destruct (evaluate E v f r0) as [b| |]; reflexivity. }
    destruct op; try reflexivity; exact Q.
  - cbn [evaluate_told evaluate]. rewrite tell_snd, IH. destruct (evaluate E v f l) as [a| |]; cbn [bind]; auto.
    rewrite tell_snd, IH. destruct (evaluate E v f r0) as [b| |]; cbn [bind]; auto. rewrite tell_snd. unfold operand.
    assert (Q : snd (match l with NNumber x => quiet E (Ok (ONumber, show64 E x)) | _ => operand_told E v f a end) =
      match l with NNumber x => Ok (ONumber, show64 E x) | _ => get_operand_val E v f a end) by (destruct l; try apply operand_snd; reflexivity).
    etransitivity; [exact (f_equal (fun z => bind z _) Q)|]. destruct (match l with NNumber x => Ok (ONumber, show64 E x) | _ => get_operand_val E v f a end) as [ta| |]; cbn [bind]; auto.
    rewrite tell_snd, operand_snd. destruct (get_operand_val E v f b) as [tb| |]; reflexivity.
  - assert (A : forall l best, snd (least_told f best l) = least E v f best l).
    { fix IHl 1. intros [|y l] best; [reflexivity|]. cbn [least_told least]. rewrite tell_snd, IH. destruct (evaluate E v f y) as [t| |]; cbn [bind]; auto.
      rewrite tell_snd, min_snd. destruct (min_order E v f best t) as [o| |]; cbn [bind]; auto. }
    cbn [evaluate_told evaluate].
    destruct (str_eqb name (lit "Abs")). { destruct args as [|a args]; [reflexivity|]. rewrite tell_snd, IH. destruct (evaluate E v f a); reflexivity. }
    destruct (str_eqb name (lit "Acos")). { destruct args as [|a args]; [reflexivity|]. rewrite tell_snd, IH. destruct (evaluate E v f a); reflexivity. }
    destruct (str_eqb name (lit "Asin")).
    { destruct args as [|a [|b args]]; [reflexivity| |]; rewrite tell_snd, IH; destruct (evaluate E v f a); try reflexivity. cbn [bind]. rewrite tell_snd, IH.
      destruct (evaluate E v f b); reflexivity. }
    destruct (str_eqb name (lit "Char")). { destruct args as [|a args]; [reflexivity|]. rewrite tell_snd, IH. destruct (evaluate E v f a); reflexivity. }
    destruct (str_eqb name (lit "Min")). { destruct args as [|a args]; [reflexivity|]. rewrite tell_snd, IH. destruct (evaluate E v f a); try reflexivity. apply A. }
    destruct (str_eqb name (lit "Get")); reflexivity.
Qed.
Lemma calculation_snd f s : snd (calculation_told E v f s) = eval_calculation E v f s.
Proof.
  unfold calculation_told, eval_calculation, lex. rewrite tell_snd, lex_snd. destruct (lex_loop E _ s [] []) as [ts| |]; cbn [bind]; auto.
  rewrite tell_snd. cbn [quiet snd]. destruct (parse E _ ts) as [n| |]; cbn [bind]; auto. rewrite tell_snd. cbn [tells snd bind]. apply evaluate_snd.
Qed.

(** ** Names that are unset *)
Lemma unset_hop s w : unset E v s -> ~ leads_to E v s w.
Proof.
  intros (H1 & H2 & H3 & (sc & D & S & G)) K. destruct K as [s a b w _ _ Hs Ha Hb _|s w _ _ _ (sc' & D' & S' & G')].
  - apply H3. now exists a, b.
  - congruence.
Qed.
Lemma unset_ends s u : unset E v s -> (ends_at E v s u <-> u = s).
Proof.
  intros H. split.
  - intros [[->|K] _]; auto. destruct K as [s w K|s w u K _]; now elim (unset_hop _ w H).
  - intros ->. split; auto.
Qed.
Lemma hop_ends s w u : leads_to E v s w -> (ends_at E v s u <-> ends_at E v w u).
Proof.
  intros H. split; intros [K U]; split; auto.
  - destruct K as [->|K]; [now elim (unset_hop _ w U)|]. destruct K as [s w' K|s w' u K F].
    + left. apply hop_spec in H. apply hop_spec in K. congruence.
    + right. apply hop_spec in H. apply hop_spec in K. assert (w' = w) by congruence. now subst.
  - right. destruct K as [<-|K]; [now constructor|now apply (LfMore _ _ _ w)].
Qed.
Lemma known_ends s t r : stands_for E v s t r -> (forall w, ~ leads_to E v s w) -> ~ unset E v s -> forall u, ~ ends_at E v s u.
Proof. intros _ H K u [[->|F] U]; [contradiction|]. destruct F as [s w F|s w u F _]; now elim (H w). Qed.

Lemma operand_lines : forall f s l t r, operand_told E v f s = (l, Ok (t, r)) -> forall x, In x l <-> exists u, x = SUnknown u /\ ends_at E v s u.
Proof.
  induction f as [|f IH]; intros s l t r H; [discriminate|]. cbn [operand_told] in H. destruct (parse64 E s) as [n|] eqn:Ep.
  { apply quiet_ok in H as [-> _]. intros x. split; [intros []|]. intros (u & _ & [[->|K] (U & _)]); [congruence|].
    destruct K as [s w K|s w u K _]; destruct K; congruence. }
  destruct (quoted s) eqn:Eq.
  { apply quiet_ok in H as [-> _]. apply quoted_spec in Eq. intros x. split; [intros []|]. intros (u & _ & [[->|K] (_ & U & _)]); [contradiction|].
    destruct K as [s w K|s w u K _]; destruct K; contradiction. }
  apply quoted_false in Eq. destruct (split_cases s) as [(a & b & Hs & Hv & Ha & Hb)|[Hf Hs]].
  - rewrite Hs in H. apply tell_ok in H as (l1 & w & l2 & Hw & H & ->). apply quiet_ok in Hw as [-> Hw]. cbn [app].
    assert (K : leads_to E v s w) by (eapply LtField; eauto). intros x. rewrite (IH _ _ _ _ H x). split; intros (u & Hx & U); exists u; (split; [exact Hx|]); now apply (hop_ends s w u K).
  - assert (H' : and_tell E (quiet E (current_scope v)) (fun vars => match sget vars s with None => and_tell E (tells E [SUnknown s]) (fun _ => quiet E (Ok (OText, []))) | Some w => operand_told E v f w end) = (l, Ok (t, r))).
    { destruct (split s) as [|a [|b [|c q]]]; try exact H. now elim (Hs a b). }
    clear H. apply tell_ok in H' as (l1 & sc & l2 & Hsc & H & ->). apply quiet_ok in Hsc as [-> Hsc]. apply scope_spec in Hsc as [D S]. cbn [app].
    destruct (sget sc s) as [w|] eqn:G.
    + assert (K : leads_to E v s w) by (apply LtVariable; auto; now exists sc). intros x. rewrite (IH _ _ _ _ H x). split; intros (u & Hx & U); exists u; (split; [exact Hx|]); now apply (hop_ends s w u K).
    + apply tell_ok in H as (l1 & [] & l3 & H1 & H & ->). apply quiet_ok in H as [-> _]. inversion H1. subst l1. rewrite app_nil_r.
      assert (U : unset E v s) by (repeat split; auto; now exists sc). intros x. split.
      * intros [<-|[]]. exists s. split; [reflexivity|]. now apply unset_ends.
      * intros (u & -> & K). apply (unset_ends s u U) in K. subst u. now left.
Qed.

(** ** Trees *)
Lemma meets_cases n u : meets E v n u <-> (exists s, looks_up E v n s /\ ends_at E v s u) \/ (exists m, part E n m /\ meets E v m u).
Proof.
  split.
  - intros (m & s & I & L & U). destruct I as [n|n k m P I]; [left; now exists s|]. right. exists k. split; [exact P|]. now exists m, s.
  - intros [(s & L & U)|(k & P & m & s & I & L & U)]; [exists n, s|exists m, s]; (split; [|now split]); [constructor|now apply (InPart _ _ k)].
Qed.
Lemma mixes_cases n : mixes E v n <-> (exists l op r m a t, n = NBinary l op r /\ part E n m /\ value_is E v m a /\ stands_for E v a OText t) \/ (exists m, part E n m /\ mixes E v m).
Proof.
  split.
  - intros (l & op & r & m & a & t & I & P & V & S). remember (NBinary l op r) as b eqn:B. destruct I as [n|n k b0 Q I].
    + left. exists l, op, r, m, a, t. auto.
    + right. exists k. split; [exact Q|]. subst b0. now exists l, op, r, m, a, t.
  - intros [(l & op & r & m & a & t & -> & P & V & S)|(k & P & l & op & r & m & a & t & I & Q & V & S)].
    + exists l, op, r, m, a, t. split; [constructor|auto].
    + exists l, op, r, m, a, t. split; [now apply (InPart _ _ k)|auto].
Qed.

(** The lines of a tree. *)
Definition about (n : node) (x : said (f64 E)) : Prop := (exists u, x = SUnknown u /\ meets E v n u) \/ (x = SNotNumbers /\ mixes E v n).
Definition named (s : list N) (x : said (f64 E)) : Prop := exists u, x = SUnknown u /\ ends_at E v s u.
Definition mixed (n : node) : Prop := exists l op r m a t, n = NBinary l op r /\ part E n m /\ value_is E v m a /\ stands_for E v a OText t.

(** From the lines of the parts, and of the texts looked up. *)
Lemma lines_from n x :
  about n x <-> (exists m, part E n m /\ about m x) \/ (exists s, looks_up E v n s /\ named s x) \/ (x = SNotNumbers /\ mixed n).
Proof.
  split.
  - intros [(u & -> & K)|[-> K]].
    + apply meets_cases in K as [(s & K & U)|(m & K & U)].
      * right. left. exists s. split; [exact K|]. now exists u.
      * left. exists m. split; [exact K|]. left. now exists u.
    + apply mixes_cases in K as [K|(m & K & U)]; [now right; right|]. left. exists m. split; [exact K|now right].
  - intros [(m & P & [(u & -> & K)|[-> K]])|[(s & L & u & -> & K)|[-> K]]].
    + left. exists u. split; [reflexivity|]. apply meets_cases. right. now exists m.
    + right. split; [reflexivity|]. apply mixes_cases. right. now exists m.
    + left. exists u. split; [reflexivity|]. apply meets_cases. left. now exists s.
    + right. split; [reflexivity|]. apply mixes_cases. now left.
Qed.

Lemma told_value f n l r : ~ odd_node E n -> evaluate_told E v f n = (l, Ok r) -> value_is E v n r.
Proof. intros Ho H. apply (value_sound E v f); [exact Ho|]. rewrite <- evaluate_snd, H. reflexivity. Qed.
Lemma told_operand f s l t r : operand_told E v f s = (l, Ok (t, r)) -> stands_for E v s t r.
Proof. intros H. apply (operand_sound E v f). unfold operand. rewrite <- operand_snd, H. reflexivity. Qed.
Lemma min_lines f a b l o : min_told E v f a b = (l, Ok o) -> forall x, In x l <-> named a x \/ named b x.
Proof.
  intros H x. apply tell_ok in H as (l1 & [ta ra] & l2 & H1 & H & ->). apply tell_ok in H as (l3 & [tb rb] & l4 & H2 & H & ->). apply quiet_ok in H as [-> _].
  rewrite app_nil_r, in_app_iff. now rewrite (operand_lines _ _ _ _ _ H1 x), (operand_lines _ _ _ _ _ H2 x).
Qed.

Lemma least_lines f : forall l best out r, Forall (fun n => ~ odd_node E n) l ->
  Forall (fun n => forall l r, evaluate_told E v f n = (l, Ok r) -> forall x, In x l <-> about n x) l ->
  least_told f best l = (out, Ok r) ->
  forall x, In x out <-> (exists m, In m l /\ about m x) \/ (exists m a, In m l /\ value_is E v m a /\ named a x) \/ (l <> [] /\ named best x).
Proof.
  induction l as [|y l IH]; intros best out r Ho Ha H x.
  - apply quiet_ok in H as [-> _]. split; [intros []|]. intros [(m & [] & _)|[(m & a & [] & _)|[K _]]]; congruence.
  - cbn [least_told] in H. apply tell_ok in H as (l1 & t & l2 & H1 & H & ->). apply tell_ok in H as (l3 & o & l4 & H2 & H & ->).
    pose proof (told_value _ _ _ _ (Forall_inv Ho) H1) as Vy.
    pose proof (Forall_inv Ha _ _ H1 x) as A. pose proof (min_lines _ _ _ _ _ H2 x) as B. pose proof (IH _ _ _ (Forall_inv_tail Ho) (Forall_inv_tail Ha) H x) as C.
    rewrite !in_app_iff, A, B, C. clear A B C. split.
    + intros [K|[[K|K]|[(m & K & L)|[(m & a & K & L & M)|[_ K]]]]].
      * left. exists y. split; [now left|exact K].
      * right. right. split; [discriminate|exact K].
      * right. left. exists y, t. split; [now left|]. auto.
      * left. exists m. split; [now right|exact L].
      * right. left. exists m, a. split; [now right|auto].
      * destruct o; [right; right|right; right|right; left]; try (split; [discriminate|exact K]). exists y, t. split; [now left|auto].
    + intros [(m & [<-|K] & L)|[(m & a & [<-|K] & L & M)|[_ K]]].
      * now left.
      * right. right. left. now exists m.
      * rewrite (C78_one_value _ _ _ _ _ L Vy) in M. right. left. now right.
      * right. right. right. left. now exists m, a.
      * right. left. now left.
Qed.

Lemma first_part name a rest : In name (map lit ["Abs"; "Acos"; "Char"]%string) -> forall m, part E (NCall name (a :: rest)) m <-> m = a.
Proof.
  intros H m. split.
  - intros P. inversion P; subst; auto; cbn in H; destruct H as [H|[H|[H|[]]]]; discriminate.
  - intros ->. apply PaFirst. cbn in *. destruct H as [H|[H|[H|[]]]]; auto.
Qed.
Lemma call_quiet name args s : name <> lit "Min" -> ~ looks_up E v (NCall name args) s.
Proof. intros H K. inversion K; subst. now apply H. Qed.
Lemma call_mixed name args : ~ mixed (NCall name args).
Proof. intros (l & op & r & m & a & t & H & _). discriminate. Qed.
Lemma one_part name a rest l x : In name (map lit ["Abs"; "Acos"; "Char"]%string) -> (In x l <-> about a x) -> (In x l <-> about (NCall name (a :: rest)) x).
Proof.
  intros H A. rewrite A, (lines_from (NCall name (a :: rest))). split.
  - intros K. left. exists a. split; [now apply first_part|exact K].
  - intros [(m & P & K)|[(s & L & _)|[_ M]]].
    + apply first_part in P; [now subst|exact H].
    + apply call_quiet in L as []. intros ->. cbn in H. destruct H as [H|[H|[H|[]]]]; discriminate.
    + now apply call_mixed in M.
Qed.
Lemma bare n x : (forall m, ~ part E n m) -> (forall s, ~ looks_up E v n s) -> ~ mixed n -> ~ about n x.
Proof. intros P L M K. apply lines_from in K as [(m & K & _)|[(s & K & _)|[_ K]]]; [now apply P in K|now apply L in K|now apply M]. Qed.
Lemma two_parts n l r : (forall m, part E n m <-> m = l \/ m = r) -> (forall s, ~ looks_up E v n s) -> ~ mixed n ->
  forall x, about n x <-> about l x \/ about r x.
Proof.
  intros P L M x. rewrite lines_from. split.
  - intros [(m & K & A)|[(s & K & _)|[_ K]]]; [|now apply L in K|now apply M in K]. apply P in K as [->| ->]; auto.
  - intros [K|K]; left; [exists l|exists r]; (split; [apply P; auto|exact K]).
Qed.

Lemma evaluate_lines f : forall n l r, ~ odd_node E n -> evaluate_told E v f n = (l, Ok r) -> forall x, In x l <-> about n x.
Proof.
  fix IH 1. intros n out r Hodd H x. destruct n as [value c|l op r0|l r0|l op r0|l op r0|name args|y|name|name|s].
  - elim Hodd. constructor.
  - cbn [evaluate_told] in H. apply tell_ok in H as (l1 & a & l2 & H1 & H & ->). apply tell_ok in H as (l3 & b & l4 & H2 & H & ->).
    apply tell_ok in H as (l5 & [ta a'] & l6 & H3 & H & ->). apply tell_ok in H as (l7 & [tb b'] & l8 & H4 & H & ->).
    assert (Ol : ~ odd_node E l) by (intros K; apply Hodd; now apply OddBinL). assert (Or : ~ odd_node E r0) by (intros K; apply Hodd; now apply OddBinR).
    pose proof (told_value _ _ _ _ Ol H1) as Va. pose proof (told_value _ _ _ _ Or H2) as Vb. pose proof (told_operand _ _ _ _ _ H3) as Sa. pose proof (told_operand _ _ _ _ _ H4) as Sb.
    pose proof (IH _ _ _ Ol H1 x) as A1. pose proof (IH _ _ _ Or H2 x) as A2. pose proof (operand_lines _ _ _ _ _ H3 x) as A3. pose proof (operand_lines _ _ _ _ _ H4 x) as A4.
    assert (A5 : In x l8 <-> x = SNotNumbers /\ (ta = OText \/ tb = OText)).
    { assert (K : exists g, arithmetic_told E g (ta, a') (tb, b') = (l8, Ok r)) by (destruct op; try discriminate H; eauto). clear H. destruct K as (g & K).
      apply tell_ok in K as (l9 & [] & l10 & K & L & ->). apply quiet_ok in L as [-> _]. inversion K. rewrite app_nil_r. destruct ta, tb; cbn; intuition (try congruence; try discriminate). }
    rewrite !in_app_iff, A1, A2, A3, A4, A5, (lines_from (NBinary l op r0)). clear A1 A2 A3 A4 A5. split.
    + intros [K|[K|[K|[K|[-> K]]]]].
      * left. exists l. split; [constructor|exact K].
      * left. exists r0. split; [constructor|exact K].
      * right. left. exists a. split; [|exact K]. apply (LuOperand _ _ _ _ _ l); [constructor|exact Va].
      * right. left. exists b. split; [|exact K]. apply (LuOperand _ _ _ _ _ r0); [constructor|exact Vb].
      * right. right. split; [reflexivity|]. destruct K as [->| ->]; [exists l, op, r0, l, a, a'|exists l, op, r0, r0, b, b']; (split; [reflexivity|]); (split; [constructor|]); auto.
    + intros [(m & P & K)|[(s & L & K)|[-> (l' & op' & r' & m & w & t & Q & P & V & S)]]].
      * inversion P; subst; auto.
      * inversion L as [| |? ? ? m w P V|]; subst. inversion P; subst.
        -- rewrite (C78_one_value _ _ _ _ _ V Va) in K. auto.
        -- rewrite (C78_one_value _ _ _ _ _ V Vb) in K. auto 6.
      * do 4 right. split; [reflexivity|]. inversion P; subst.
        -- rewrite (C78_one_value _ _ _ _ _ V Va) in S. destruct (stands_for_fun _ _ _ _ _ _ _ S Sa). auto.
        -- rewrite (C78_one_value _ _ _ _ _ V Vb) in S. destruct (stands_for_fun _ _ _ _ _ _ _ S Sb). auto.
  - cbn [evaluate_told] in H. apply tell_ok in H as (l1 & a & l2 & H1 & H & ->). apply tell_ok in H as (l3 & b & l4 & H2 & H & ->). apply quiet_ok in H as [-> _].
    rewrite app_nil_r, in_app_iff. rewrite (IH _ _ _ (fun K => Hodd (OddConL _ _ _ K)) H1 x), (IH _ _ _ (fun K => Hodd (OddConR _ _ _ K)) H2 x). symmetry. apply two_parts.
    + intros m. split; [intros P; inversion P; auto|intros [->| ->]; constructor].
    + intros s K. inversion K.
    + intros (? & ? & ? & ? & ? & ? & K & _). discriminate.
  - assert (K : and_tell E (evaluate_told E v f l) (fun a => and_tell E (evaluate_told E v f r0) (fun b => quiet E (compare_texts op a b))) = (out, Ok r)) by (destruct op; try discriminate H; exact H).
    clear H. apply tell_ok in K as (l1 & a & l2 & H1 & H & ->). apply tell_ok in H as (l3 & b & l4 & H2 & H & ->). apply quiet_ok in H as [-> _].
    rewrite app_nil_r, in_app_iff. rewrite (IH _ _ _ (fun K => Hodd (OddCmpL _ _ _ _ K)) H1 x), (IH _ _ _ (fun K => Hodd (OddCmpR _ _ _ _ K)) H2 x). symmetry. apply two_parts.
    + intros m. split; [intros P; inversion P; auto|intros [->| ->]; constructor].
    + intros s K. inversion K.
    + intros (? & ? & ? & ? & ? & ? & K & _). discriminate.
  - elim Hodd. constructor.
  - assert (A0 : Forall (fun n => ~ odd_node E n) args) by (apply Forall_forall; exact (call_args E _ _ Hodd)).
    assert (A : Forall (fun n => forall l r, evaluate_told E v f n = (l, Ok r) -> forall x, In x l <-> about n x) args).
    { pose proof (call_args E _ _ Hodd) as C. clear Hodd H A0. revert args C. fix IHl 1. intros [|a args] C; constructor.
      - intros l0 r1. apply IH. apply C. now left.
      - apply IHl. intros n Hn. apply C. now right. }
    clear IH.
    destruct (in_dec (list_eq_dec N.eq_dec) name known_functions) as [K|K].
    + cbn in K. destruct K as [<-|[<-|[<-|[<-|[<-|[<-|[]]]]]]].
      * destruct args as [|a args]; [discriminate|]. apply tell_ok in H as (l1 & s & l2 & H1 & H & ->). apply quiet_ok in H as [-> _]. rewrite app_nil_r.
        apply one_part; [cbn; auto|]. now apply (Forall_inv A _ s).
      * destruct args as [|a args]; [discriminate|]. apply tell_ok in H as (l1 & s & l2 & H1 & H & ->). apply quiet_ok in H as [-> _]. rewrite app_nil_r.
        apply one_part; [cbn; auto|]. now apply (Forall_inv A _ s).
      * destruct args as [|a [|b args]]; [discriminate|apply tell_ok in H as (? & ? & ? & _ & H & _); discriminate|].
        apply tell_ok in H as (l1 & s & l2 & H1 & H & ->). apply tell_ok in H as (l3 & t & l4 & H2 & H & ->). apply quiet_ok in H as [-> _].
        rewrite app_nil_r, in_app_iff, (Forall_inv A _ _ H1 x), (Forall_inv (Forall_inv_tail A) _ _ H2 x). symmetry. apply two_parts.
        -- intros m. split; [intros P; inversion P; auto; discriminate|]. intros [->| ->]; [apply PaFirst; cbn; auto|apply PaAsin].
        -- intros w. apply call_quiet. discriminate.
        -- apply call_mixed.
      * destruct args as [|a args]; [discriminate|]. apply tell_ok in H as (l1 & s & l2 & H1 & H & ->). apply quiet_ok in H as [-> _]. rewrite app_nil_r.
        apply one_part; [cbn; auto|]. now apply (Forall_inv A _ s).
      * destruct args as [|a args]; [discriminate|]. change (lit "Min") with (lit "Min"%string) in H. rewrite min_told_eq in H. apply tell_ok in H as (l1 & s & l2 & H1 & H & ->).
        pose proof (told_value _ _ _ _ (Forall_inv A0) H1) as Va.
        rewrite in_app_iff, (Forall_inv A _ _ H1 x), (least_lines f _ _ _ _ (Forall_inv_tail A0) (Forall_inv_tail A) H x), (lines_from (NCall _ (a :: args))). split.
        -- intros [K|[(m & K & L)|[(m & w & K & L & M)|[K L]]]].
           ++ left. exists a. split; [apply PaMin; now left|exact K].
           ++ left. exists m. split; [apply PaMin; now right|exact L].
           ++ right. left. exists w. split; [|exact M]. apply (LuMin _ _ _ m); [destruct args; [destruct K|cbn; lia]|now right|exact L].
           ++ right. left. exists s. split; [|exact L]. apply (LuMin _ _ _ a); [destruct args; [congruence|cbn; lia]|now left|exact Va].
        -- intros [(m & P & K)|[(w & L & K)|[_ K]]]; [| |now apply call_mixed in K].
           ++ assert (I : In m (a :: args)) by (inversion P; subst; auto; cbn in *; intuition discriminate). destruct I as [<-|I]; [now left|]. right. left. now exists m.
           ++ inversion L as [| | |? m ? Hl I V]; subst. destruct I as [<-|I].
              ** rewrite (C78_one_value _ _ _ _ _ V Va) in K. do 3 right. split; [|exact K]. destruct args; [cbn in Hl; lia|discriminate].
              ** right. right. left. now exists m, w.
      * assert (Q : out = []) by (destruct args; inversion H; reflexivity). subst out. split; [intros []|]. intros K. exfalso. revert K. apply bare.
        -- intros m P. inversion P; subst; cbn in *; intuition discriminate.
        -- intros w. apply call_quiet. discriminate.
        -- apply call_mixed.
    + pose proof (known_false _ K) as (K1 & K2 & K3 & K4 & K5 & K6). cbn [evaluate_told] in H. rewrite K1, K2, K3, K4, K5, K6 in H. apply quiet_ok in H as [-> _].
      split; [intros []|]. intros Q. exfalso. revert Q. apply bare.
      -- intros m P. apply K. cbn. inversion P; subst; cbn in *; intuition.
      -- intros w. apply call_quiet. intros ->. apply K. cbn. auto 10.
      -- apply call_mixed.
  - apply quiet_ok in H as [-> _]. split; [intros []|]. intros Q. exfalso. revert Q. apply bare; [intros m P; inversion P|intros w L; inversion L|].
    intros (? & ? & ? & ? & ? & ? & K & _). discriminate.
  - apply tell_ok in H as (l1 & [t w] & l2 & H1 & H & ->). apply quiet_ok in H as [-> _]. rewrite app_nil_r, (operand_lines _ _ _ _ _ H1 x), lines_from. split.
    + intros K. right. left. exists name. split; [constructor|exact K].
    + intros [(m & P & _)|[(s & L & K)|[_ (? & ? & ? & ? & ? & ? & K & _)]]]; [inversion P| |discriminate]. inversion L; now subst.
  - apply tell_ok in H as (l1 & [t w] & l2 & H1 & H & ->). apply quiet_ok in H as [-> _]. rewrite app_nil_r, (operand_lines _ _ _ _ _ H1 x), lines_from. split.
    + intros K. right. left. exists name. split; [constructor|exact K].
    + intros [(m & P & _)|[(s & L & K)|[_ (? & ? & ? & ? & ? & ? & K & _)]]]; [inversion P| |discriminate]. inversion L; now subst.
  - apply quiet_ok in H as [-> _]. split; [intros []|]. intros Q. exfalso. revert Q. apply bare; [intros m P; inversion P|intros w L; inversion L|].
    intros (? & ? & ? & ? & ? & ? & K & _). discriminate.
Qed.
End V.

(** ** Colons *)
Lemma lex_colons : forall f s b ts l ts', lex_told E f s b ts = (l, Ok ts') -> exists k, strays E s k /\ l = repeat SColon k.
Proof.
  induction f as [|f IH]; intros s b ts l ts' H; [discriminate|]. destruct s as [|c s].
  { apply quiet_ok in H as [-> _]. exists O. split; [constructor|reflexivity]. }
  assert (O : c <> 34 -> c <> 58 -> forall k, strays E s k -> strays E (c :: s) k) by (intros; now apply StOther).
  cbn [lex_told] in H.
  destruct (whitespace c && match b with [] => true | _ :: _ => false end) eqn:W.
  { apply IH in H as (k & K & ->). exists k. split; [|reflexivity]. apply O; [| |exact K]; intros ->; discriminate. }
  destruct (N.eqb_spec c 32) as [->|N1].
  { apply tell_ok in H as (l1 & ts1 & l2 & H1 & H & ->). apply quiet_ok in H1 as [-> _]. apply IH in H as (k & K & ->). exists k. split; [|reflexivity]. now apply O. }
  destruct (single c) as [t|] eqn:Es.
  { apply tell_ok in H as (l1 & ts1 & l2 & H1 & H & ->). apply quiet_ok in H1 as [-> _]. apply IH in H as (k & K & ->). exists k. split; [|reflexivity].
    apply O; [| |exact K]; intros ->; discriminate. }
  destruct (N.eqb_spec c 33) as [->|N2].
  { apply tell_ok in H as (l1 & ts1 & l2 & H1 & H & ->). apply quiet_ok in H1 as [-> _]. destruct s as [|d s]; [discriminate|].
    destruct (N.eqb_spec d 61) as [->|]; apply IH in H as (k & K & ->); exists k; (split; [|reflexivity]); apply O; try discriminate; auto. now apply StOther. }
  destruct (N.eqb_spec c 61) as [->|N3].
  { apply tell_ok in H as (l1 & ts1 & l2 & H1 & H & ->). apply quiet_ok in H1 as [-> _]. destruct s as [|d s]; [discriminate|].
    apply IH in H as (k & K & ->); exists k; (split; [|reflexivity]); now apply O. }
  destruct (N.eqb_spec c 60) as [->|N4].
  { apply tell_ok in H as (l1 & ts1 & l2 & H1 & H & ->). apply quiet_ok in H1 as [-> _]. destruct s as [|d s]; [discriminate|].
    apply IH in H as (k & K & ->); exists k; (split; [|reflexivity]); now apply O. }
  destruct (N.eqb_spec c 62) as [->|N5].
  { apply tell_ok in H as (l1 & ts1 & l2 & H1 & H & ->). apply quiet_ok in H1 as [-> _]. destruct s as [|d s]; [discriminate|].
    apply IH in H as (k & K & ->); exists k; (split; [|reflexivity]); now apply O. }
  destruct (N.eqb_spec c 34) as [->|N6].
  { apply tell_ok in H as (l1 & ts1 & l2 & H1 & H & ->). apply quiet_ok in H1 as [-> _]. destruct (read_string s) as [a r] eqn:R.
    apply IH in H as (k & K & ->). exists k. split; [|reflexivity]. destruct (read_string_spec _ _ _ R) as [(w & -> & -> & Hw)|(-> & -> & Hw)].
    - now apply StString.
    - inversion K; subst. now apply StOpen. }
  destruct (N.eqb_spec c 58) as [->|N7]; [|apply IH in H as (k & K & ->); exists k; split; [now apply O|reflexivity]].
  apply tell_ok in H as (l1 & [] & l2 & H1 & H & ->). inversion H1; subst l1. destruct (read_name E (tl s)) as [a r] eqn:R. apply read_name_spec in R as [Rt Rn].
  apply IH in H as (k & K & ->). destruct s as [|d s].
  - cbn [tl] in Rt. symmetry in Rt. apply app_eq_nil in Rt as [-> ->]. inversion K; subst. exists 1%nat. split; [apply StLast|reflexivity].
  - cbn [tl] in Rt. subst s. destruct (N.eqb_spec d 58) as [->|Nd]; cbn [negb].
    + exists k. split; [now apply StField|reflexivity].
    + exists (S k). split; [now apply StColon|reflexivity].
Qed.

Lemma body_split : forall (a b : list N) s t, ~ In 34 a -> ~ In 34 b -> a ++ 34 :: s = b ++ 34 :: t -> a = b /\ s = t.
Proof.
  induction a as [|x a IH]; intros [|y b] s t Ha Hb Q; cbn in *; inversion Q; subst; auto.
  - elim Hb. now left.
  - elim Ha. now left.
  - destruct (IH b s t) as [-> ->]; auto.
Qed.
Lemma name_split a r b t : name_part E a r -> name_part E b t -> a ++ r = b ++ t -> a = b /\ r = t.
Proof.
  intros [|xa a' r' Ha Hr] [|xb b' t' Hb Ht] Q; cbn in Q; inversion Q; subst; auto. assert (X : a' = b' /\ r' = t'); [|destruct X; subst; auto]. clear Q. rename H1 into Q.
  revert b' Hb Q. induction Ha as [|x q Hx Ha IH]; intros [|y p] Hb Q; cbn in Q; auto.
  - subst r'. inversion Hb; subst. cbn in Hr. congruence.
  - subst t'. cbn in Ht. congruence.
  - inversion Q; subst. inversion Hb; subst. destruct (IH p) as [-> ->]; auto.
Qed.
Lemma strays_one s k : strays E s k -> forall j, strays E s j -> j = k.
Proof.
  induction 1 as [|c s k H1 H2 H IH|body s k Hb H IH|body Hb|name r k Hp H IH|d name r k Hd Hp H IH|]; intros j K.
  - now inversion K.
  - inversion K; subst; auto; congruence.
  - inversion K as [|? ? ? N1|b' s' k' Hb' Z Q|b' Hb'| | |]; subst; [congruence| |].
    + destruct (body_split _ _ _ _ Hb' Hb Q) as [-> ->]. auto.
    + elim Hb'. apply in_or_app. right. now left.
  - inversion K as [|? ? ? N1|b' s' k' Hb' Z Q|b' Hb'| | |]; subst; [congruence| |reflexivity]. elim Hb. apply in_or_app. right. now left.
  - inversion K as [|? ? ? ? N2| | |n' r' k' Hp' Z Q|d n' r' k' Hd Hp' Z Q|]; subst; try congruence. match goal with Q : n' ++ r' = _ |- _ => destruct (name_split _ _ _ _ Hp' Hp Q) as [-> ->] end. auto.
  - inversion K as [|? ? ? ? N2| | |n' r' k' Hp' Z Q|d' n' r' k' Hd' Hp' Z Q|]; subst; try congruence. match goal with Q : n' ++ r' = _ |- _ => destruct (name_split _ _ _ _ Hp' Hp Q) as [-> ->] end. f_equal. auto.
  - inversion K as [|? ? ? ? N2| | | | |]; subst; congruence.
Qed.
(** The first colon. *)
Lemma first_stray a r k : ~ In 34 a -> ~ In 58 a -> hd_error r <> Some 58 -> strays E (a ++ 58 :: r) k -> k <> O.
Proof.
  intros H1 H2 Hr. induction a as [|c a IH]; cbn [app]; intros K.
  - inversion K; subst; try discriminate; try congruence. now elim Hr.
  - inversion K; subst.
    + apply IH; auto; intros I; [apply H1|apply H2]; now right.
    + elim H1. now left.
    + elim H1. now left.
    + elim H2. now left.
    + elim H2. now left.
    + elim H2. now left.
Qed.
End P.

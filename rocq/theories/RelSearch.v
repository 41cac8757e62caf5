(** The search for a relation path. *)
From Coq Require Import NArith List Bool Lia Sorted.
From Verif Require Import Prelude PreludeFacts RelModel RelSpec RelProofs.
Import ListNotations.
Local Open Scope N_scope.

Lemma scan_spec : forall l t path q v,
  match scan l t path q v with
  | inl p => p = path ++ [t] /\ In t l
  | inr (q', v') => ~ In t l /\ q' = q ++ map (fun r => (r, path ++ [r])) l /\ v' = v ++ l
  end.
Proof.
  induction l as [|r l IH]; intros t path q v; cbn [scan].
  - cbn. rewrite !app_nil_r. auto.
  - destruct (N.eqb_spec r t).
    + subst. split; auto. now left.
    + specialize (IH t path (q ++ [(r, path ++ [r])]) (v ++ [r])).
      destruct (scan l t path (q ++ [(r, path ++ [r])]) (v ++ [r])) as [p|[q' v']].
      * destruct IH as [-> H]. split; auto. now right.
      * destruct IH as (H & -> & ->). rewrite <- !app_assoc. split; auto. intros [?|?]; auto.
Qed.

Lemma search_step f g t cur path q v :
  search (S f) g t ((cur, path) :: q) v =
  match scan (filter (fun x => negb (has v x)) (neighbours g cur)) t path q v with
  | inl p => Ok (Some p)
  | inr (q', v') => search f g t q' v'
  end.
Proof. unfold neighbours. cbn [search]. destruct (nget g cur); reflexivity. Qed.

Lemma filter_positions {A} (p : A -> bool) (l : list A) :
  exists ks, Forall2 (fun k y => nth_error l k = Some y) ks (filter p l) /\ StronglySorted lt ks.
Proof.
  induction l as [|x l (ks & F & So)].
  - exists []. split; constructor.
  - assert (F' : Forall2 (fun k y => nth_error (x :: l) k = Some y) (map Datatypes.S ks) (filter p l)).
    { clear - F. induction F; cbn; constructor; auto. }
    assert (S' : StronglySorted lt (map Datatypes.S ks)).
    { clear - So. induction So as [|k ks So IH H]; cbn; constructor; auto.
      apply Forall_map. eapply Forall_impl; [|exact H]. cbn. intros. lia. }
    cbn [filter]. destruct (p x).
    + exists (O :: map Datatypes.S ks). split; constructor; auto.
      apply Forall_map. apply Forall_forall. intros. lia.
    + exists (map Datatypes.S ks). auto.
Qed.

Lemma ss_app {A} (R : A -> A -> Prop) a b :
  StronglySorted R (a ++ b) <->
  StronglySorted R a /\ StronglySorted R b /\ (forall x y, In x a -> In y b -> R x y).
Proof.
  induction a as [|x a IH]; cbn.
  - split; [intros H; split; [constructor|split; [auto|tauto]]|tauto].
  - split.
    + intros H. inversion H; subst. apply IH in H2 as (S1 & S2 & C).
      rewrite Forall_forall in H3. split; [|split; auto].
      * constructor; auto. apply Forall_forall. intros. apply H3. apply in_app_iff. auto.
      * intros u w [->|Hu] Hw; [apply H3; apply in_app_iff; auto|auto].
    + intros (S1 & S2 & C). inversion S1; subst. constructor.
      * apply IH. auto.
      * apply Forall_forall. intros y. rewrite in_app_iff. rewrite Forall_forall in H2. intros [?|?]; auto.
Qed.

Lemma nodup_app {A} (a b : list A) :
  NoDup a -> NoDup b -> (forall x, In x a -> ~ In x b) -> NoDup (a ++ b).
Proof.
  induction 1 as [|x a Hx H IH]; cbn; auto. intros Hb C. constructor.
  - rewrite in_app_iff. intros [?|?]; auto. apply (C x); auto.
  - apply IH; auto.
Qed.

Section Search.
  Variables (g : graph) (a t : N) (U : list N).
  Hypothesis nodup : forall x, NoDup (neighbours g x).
  Hypothesis inU : forall x y, edge g x y -> In y U.

  (** A route from the start, whatever its length. *)
  Definition goes (ks : list nat) (x : N) (p : list N) : Prop := route g a ks = Some p /\ last p a = x.

  Record inv (q : list (N * list N)) (v : list N) (done pend : list (list nat)) : Prop := {
    i_pend : Forall2 (fun e ks => goes ks (fst e) (snd e)) q pend;
    i_done : forall ks, In ks done -> exists x p, goes ks x p;
    i_sort : StronglySorted earlier (done ++ pend);
    i_parent : forall ks, In ks (done ++ pend) -> ks = [] \/ exists h k, In h done /\ ks = h ++ [k];
    i_seen : forall y, In y v -> exists ks p, In ks (done ++ pend) /\ goes ks y p;
    i_next : forall h x p k y, In h done -> goes h x p -> nth_error (neighbours g x) k = Some y ->
             y <> t /\ exists ks p', In ks (done ++ pend) /\ goes ks y p' /\ upto ks (h ++ [k]);
    i_start : In [] (done ++ pend);
    i_nodup : NoDup v;
    i_incl : incl v U;
    i_target : ~ In t v;
  }.

  Lemma goes_snoc ks x p k y :
    goes ks x p -> nth_error (neighbours g x) k = Some y -> goes (ks ++ [k]) y (p ++ [y]).
  Proof.
    intros [R L] E. subst x. split; [eapply route_snoc; eauto|]. apply last_last.
  Qed.

  Lemma goes_fun ks x p x' p' : goes ks x p -> goes ks x' p' -> x = x' /\ p = p'.
  Proof. intros [R L] [R' L']. rewrite R in R'. inversion R'; subst. auto. Qed.

  Lemma pend_goes q v done pend ks : inv q v done pend -> In ks pend -> exists x p, In (x, p) q /\ goes ks x p.
  Proof.
    intros I H. destruct I as [F _ _ _ _ _ _ _ _ _]. revert H. induction F as [|[x p] ks' q' pend' G F IH]; cbn; [tauto|].
    intros [->|H]; [exists x, p; auto|]. destruct (IH H) as (x' & p' & ? & ?). exists x', p'. auto.
  Qed.

  (** Every route is overtaken by a finished or a waiting one. *)
  Lemma frontier q v done pend : inv q v done pend -> forall js x p, goes js x p ->
    (exists ks p', In ks done /\ goes ks x p' /\ upto ks js) \/
    (exists js1 js2 ks x1 p1 p', js = js1 ++ js2 /\ goes js1 x1 p1 /\ In ks pend /\ goes ks x1 p' /\ upto ks js1).
  Proof.
    intros I js. induction js as [|j js IH] using rev_ind; intros x p G.
    - destruct G as [R L]. cbn in R. inversion R; subst. cbn in *.
      pose proof (i_start _ _ _ _ I) as H. apply in_app_iff in H as [H|H].
      + left. exists [], [a]. split; auto. split; [split; reflexivity|now left].
      + right. exists [], [], [], a, [a], [a]. split; auto. split; [split; reflexivity|]. split; auto.
        split; [split; reflexivity|now left].
    - destruct G as [R L]. apply route_snoc_inv in R as (q' & y & R' & E & ->).
      rewrite last_last in L. subst y.
      destruct (IH (last q' a) q') as [(ks & p' & Hd & G' & Ho)|(js1 & js2 & ks & x1 & p1 & p' & -> & G1 & Hp & G2 & Ho)].
      + split; auto.
      + destruct (i_next _ _ _ _ I _ _ _ _ _ Hd G' E) as (Ht & ks' & p'' & Hi & G'' & Ho').
        assert (Ho2 : upto ks' (js ++ [j])).
        { eapply upto_trans; [exact Ho'|]. apply upto_app; auto. now left. }
        apply in_app_iff in Hi as [Hi|Hi].
        * left. exists ks', p''. auto.
        * right. exists (js ++ [j]), [], ks', x, (q' ++ [x]), p''. rewrite app_nil_r. split; auto.
          split; [|auto]. split; [eapply route_snoc; eauto|apply last_last].
      + right. exists js1, (js2 ++ [j]), ks, x1, p1, p'. rewrite app_assoc. auto.
  Qed.

  Lemma not_done q v done pend : inv q v done pend -> forall js p, leads g a js t p ->
    exists js0 j js1 js2 ks x0 p0 x1 p1 p', js = js0 ++ [j] /\ js0 = js1 ++ js2 /\ goes js0 x0 p0 /\
      nth_error (neighbours g x0) j = Some t /\ goes js1 x1 p1 /\ In ks pend /\ goes ks x1 p' /\ upto ks js1.
  Proof.
    intros I js p (Hn & R & L). destruct (exists_last Hn) as (js0 & j & ->).
    apply route_snoc_inv in R as (q' & y & R' & E & ->). rewrite last_last in L. subst y.
    destruct (frontier _ _ _ _ I js0 (last q' a) q') as [(ks & p' & Hd & G' & Ho)|(js1 & js2 & ks & x1 & p1 & p' & -> & G1 & Hp & G2 & Ho)].
    - split; auto.
    - destruct (i_next _ _ _ _ I _ _ _ _ _ Hd G' E) as [H _]. congruence.
    - exists (js1 ++ js2), j, js1, js2, ks, (last q' a), q', x1, p1, p'. repeat (split; auto).
      all: try (apply G1); try (apply G2).
  Qed.

  Lemma step_inv cur path q v done ks0 pend l ps :
    inv ((cur, path) :: q) v done (ks0 :: pend) ->
    l = filter (fun x => negb (has v x)) (neighbours g cur) -> ~ In t l ->
    Forall2 (fun k y => nth_error (neighbours g cur) k = Some y) ps l -> StronglySorted lt ps ->
    inv (q ++ map (fun r => (r, path ++ [r])) l) (v ++ l) (done ++ [ks0]) (pend ++ map (fun k => ks0 ++ [k]) ps).
  Proof.
    intros I El Ht F S.
    assert (In_l : forall y, In y l <-> edge g cur y /\ ~ In y v).
    { intros y. subst l. rewrite filter_In, negb_true_iff, has_not. reflexivity. }
    assert (G0 : goes ks0 cur path).
    { pose proof (i_pend _ _ _ _ I) as H. inversion H; subst. auto. }
    assert (All : forall ks, In ks (done ++ ks0 :: pend) -> In ks ((done ++ [ks0]) ++ pend ++ map (fun k => ks0 ++ [k]) ps)).
    { intros ks. rewrite !in_app_iff. cbn. tauto. }
    assert (New : forall k y, nth_error (neighbours g cur) k = Some y -> In y l -> In k ps).
    { intros k y E Hy. clear - F E Hy nodup. induction F as [|k' y' ps l E' F IH]; [destruct Hy|].
      destruct Hy as [->|Hy]; [|right; auto]. left.
      pose proof (nodup cur) as N. rewrite NoDup_nth_error in N. apply N; [|congruence].
      apply nth_error_Some. congruence. }
    pose proof (i_sort _ _ _ _ I) as Sort. apply ss_app in Sort as (S1 & S2 & S3).
    inversion S2 as [|? ? S4 S5]; subst a0 l0. rewrite Forall_forall in S5.
    assert (Below : forall ks k, In ks (done ++ ks0 :: pend) -> earlier ks (ks0 ++ [k])).
    { intros ks k H. destruct (i_parent _ _ _ _ I ks H) as [->|(h & j & Hh & ->)].
      - left. rewrite app_length. cbn. lia.
      - apply earlier_app; auto. apply S3; auto. now left. }
    constructor.
    - apply Forall2_app.
      + pose proof (i_pend _ _ _ _ I) as H. inversion H; subst. auto.
      + clear - F G0. induction F as [|k y ps l E F IH]; cbn; constructor; auto. cbn. eapply goes_snoc; eauto.
    - intros ks H. apply in_app_iff in H as [H|[<-|[]]]; [eapply i_done; eauto|eauto].
    - rewrite <- app_assoc. cbn [app]. rewrite app_comm_cons, app_assoc. apply ss_app. split; [|split].
      + apply ss_app. auto.
      + clear - S. induction S as [|k ps S IH H]; cbn; constructor; auto.
        apply Forall_map. eapply Forall_impl; [|exact H]. intros j Hj. now apply earlier_snoc.
      + intros x y Hx Hy. apply in_map_iff in Hy as (k & <- & _). now apply Below.
    - intros ks H. rewrite <- app_assoc in H. cbn [app] in H. rewrite app_comm_cons, app_assoc in H.
      apply in_app_iff in H as [H|H].
      + destruct (i_parent _ _ _ _ I ks H) as [->|(h & j & Hh & ->)]; auto.
        right. exists h, j. rewrite in_app_iff. auto.
      + apply in_map_iff in H as (k & <- & _). right. exists ks0, k. rewrite in_app_iff. cbn. auto.
    - intros y H. apply in_app_iff in H as [H|H].
      + destruct (i_seen _ _ _ _ I y H) as (ks & p & Hi & G). exists ks, p. auto.
      + pose proof H as [E _]%In_l. apply In_nth_error in E as (k & E).
        exists (ks0 ++ [k]), (path ++ [y]). split; [|eapply goes_snoc; eauto].
        rewrite !in_app_iff. right. right. apply in_map_iff. exists k. eauto.
    - intros h x p k y Hh G E. apply in_app_iff in Hh as [Hh|[<-|[]]].
      + destruct (i_next _ _ _ _ I _ _ _ _ _ Hh G E) as (Hy & ks & p' & Hi & G' & Ho). split; auto. exists ks, p'. auto.
      + destruct (goes_fun _ _ _ _ _ G G0) as [-> ->].
        destruct (has v y) eqn:Hv.
        * apply has_In in Hv. split; [intros ->; now apply (i_target _ _ _ _ I)|].
          destruct (i_seen _ _ _ _ I y Hv) as (ks & p' & Hi & G'). exists ks, p'. split; auto. split; auto.
          right. now apply Below.
        * apply has_not in Hv. assert (Hl : In y l) by (apply In_l; split; auto; eapply nth_error_In; eauto).
          split; [congruence|]. exists (ks0 ++ [k]), (path ++ [y]). split; [|split; [eapply goes_snoc; eauto|now left]].
          rewrite !in_app_iff. right. right. apply in_map_iff. exists k. eauto.
    - apply All. apply (i_start _ _ _ _ I).
    - apply nodup_app; [apply (i_nodup _ _ _ _ I)| |].
      + subst l. apply NoDup_filter, nodup.
      + intros x Hx Hl. apply In_l in Hl. tauto.
    - intros x H. apply in_app_iff in H as [H|H]; [now apply (i_incl _ _ _ _ I)|].
      apply In_l in H as [H _]. eapply inU; eauto.
    - rewrite in_app_iff. intros [H|H]; auto. now apply (i_target _ _ _ _ I).
  Qed.

  Definition answer (r : option (list N)) : Prop :=
    match r with
    | Some p => exists ks, leads g a ks t p /\ forall js q, leads g a js t q -> upto ks js
    | None => forall js q, ~ leads g a js t q
    end.

  Lemma search_answer : forall fuel q v done pend,
    inv q v done pend -> (length q + (length U - length v) <= fuel)%nat ->
    exists r, search fuel g t q v = Ok r /\ answer r.
  Proof.
    induction fuel as [|fuel IH]; intros q v done pend I M.
    - destruct q as [|e q]; [|cbn in M; lia]. exists None. split; auto.
      intros js p H. destruct (not_done _ _ _ _ I _ _ H) as (js0 & j & js1 & js2 & ks & x0 & p0 & x1 & p1 & p' & _ & _ & _ & _ & _ & Hp & _).
      pose proof (i_pend _ _ _ _ I) as F. inversion F; subst. destruct Hp.
    - destruct q as [|[cur path] q].
      { exists None. split; auto.
        intros js p H. destruct (not_done _ _ _ _ I _ _ H) as (js0 & j & js1 & js2 & ks & x0 & p0 & x1 & p1 & p' & _ & _ & _ & _ & _ & Hp & _).
        pose proof (i_pend _ _ _ _ I) as F. inversion F; subst. destruct Hp. }
      rewrite search_step.
      set (l := filter (fun x => negb (has v x)) (neighbours g cur)).
      pose proof (i_pend _ _ _ _ I) as F0. inversion F0 as [|? ks0 ? pend' G0 F1]; subst. cbn [fst snd] in G0.
      pose proof (scan_spec l t path q v) as Sc.
      destruct (scan l t path q v) as [p|[q' v']].
      + destruct Sc as [-> Hl]. exists (Some (path ++ [t])). split; auto. cbn [answer].
        assert (E : In t (neighbours g cur)). { unfold l in Hl. apply filter_In in Hl. tauto. }
        apply In_nth_error in E as (k & E). exists (ks0 ++ [k]).
        pose proof (goes_snoc _ _ _ _ _ G0 E) as G. split.
        { split; [now destruct ks0|]. exact G. }
        intros js q0 H. destruct (not_done _ _ _ _ I _ _ H) as
          (js0 & j & js1 & js2 & ks & x0 & p0 & x1 & p1 & p' & -> & -> & Ga & Ej & Gb & Hp & Gc & Ho).
        assert (H0 : upto ks0 ks).
        { destruct Hp as [->|Hp]; [now left|]. right.
          pose proof (i_sort _ _ _ _ I) as Sort. apply ss_app in Sort as (_ & S2 & _).
          inversion S2 as [|? ? _ S5]; subst. rewrite Forall_forall in S5. auto. }
        pose proof (upto_trans _ _ _ H0 Ho) as H1.
        destruct js2 as [|j2 js2].
        * rewrite app_nil_r in *. destruct H1 as [->|H1].
          -- destruct (goes_fun _ _ _ _ _ Ga G0) as [-> ->].
             assert (k = j) as ->; [|now left].
             pose proof (nodup cur) as Nd. rewrite NoDup_nth_error in Nd. apply Nd; [|congruence].
             apply nth_error_Some. congruence.
          -- right. apply earlier_app; auto.
        * right. left. rewrite !app_length. cbn.
          assert (length ks0 <= length js1)%nat; [|lia].
          destruct H1 as [->|[H1|[H1 _]]]; lia.
      + destruct Sc as (Ht & -> & ->).
        destruct (filter_positions (fun x => negb (has v x)) (neighbours g cur)) as (ps & Fp & Sp).
        pose proof (step_inv _ _ _ _ _ _ _ l ps I eq_refl Ht Fp Sp) as I'.
        apply (IH _ _ _ _ I').
        pose proof (NoDup_incl_length (i_nodup _ _ _ _ I') (i_incl _ _ _ _ I')) as Hle.
        rewrite app_length in Hle. rewrite !app_length, map_length. cbn [length] in M. lia.
  Qed.

  Lemma start_inv : inv [(a, [a])] [] [] [[]].
  Proof.
    constructor; cbn; auto.
    - constructor; [|constructor]. split; reflexivity.
    - tauto.
    - constructor; constructor.
    - intros ks [<-|[]]. auto.
    - tauto.
    - tauto.
    - constructor.
    - intros x [].
  Qed.
End Search.

Lemma all_neighbours g x y : edge g x y -> In y (concat (vals g)).
Proof.
  unfold edge, neighbours. destruct (nget g x) as [l|] eqn:E; [|intros []].
  intros H. apply in_concat. exists l. split; auto.
  apply (mget_In _ N.eqb_spec) in E. apply in_map_iff. exists (x, l). auto.
Qed.

Theorem get_path_answer es g a t : built es g -> exists r, get_path g a t = Ok r /\ answer g a t r.
Proof.
  intros B. unfold get_path. eapply search_answer with (U := concat (vals g)).
  - eapply built_nodup; eauto.
  - apply all_neighbours.
  - apply start_inv.
  - unfold path_fuel. cbn [length]. lia.
Qed.

(** Two routes of which each comes first are one. *)
Lemma upto_antisym a b : upto a b -> upto b a -> a = b.
Proof.
  intros [->|H] [E|H2]; auto. exfalso. apply (earlier_irrefl a). eapply earlier_trans; eauto.
Qed.

Lemma get_path_first es g a t p : built es g ->
  (get_path g a t = Ok (Some p) <->
   exists ks, leads g a ks t p /\ forall js q, leads g a js t q -> js = ks \/ earlier ks js).
Proof.
  intros B. destruct (get_path_answer es g a t B) as (r & E & A). rewrite E. split.
  - intros H. inversion H; subst. destruct A as (ks & L & M). exists ks. split; auto.
    intros js q Hq. destruct (M js q Hq); auto.
  - intros (ks & L & M). destruct r as [p'|]; [|exfalso; eapply A; eauto].
    destruct A as (ks' & L' & M'). assert (ks = ks').
    { apply upto_antisym; [|eauto]. destruct (M _ _ L') as [->|?]; [now left|now right]. }
    subst. destruct L as (_ & R & _), L' as (_ & R' & _). congruence.
Qed.

Lemma get_path_none es g a t : built es g ->
  (get_path g a t = Ok None <-> forall p, walk g a p t -> p = [a]).
Proof.
  intros B. destruct (get_path_answer es g a t B) as (r & E & A). rewrite E. split.
  - intros H. inversion H; subst. intros p W. destruct (walk_route _ _ _ _ W) as (ks & R & L & N).
    destruct ks as [|k ks]; [cbn in R; congruence|]. exfalso. apply (A (k :: ks) p). repeat split; auto. discriminate.
  - intros H. destruct r as [p|]; auto. destruct A as (ks & (Hn & R & L) & _).
    pose proof (route_walk _ _ _ _ R) as W. rewrite L in W. apply H in W. subst.
    destruct (route_nonempty _ _ _ _ R) as (q & E' & Lq). inversion E'; subst. destruct ks; [congruence|discriminate].
Qed.

Lemma get_path_walk es g a t p : built es g -> get_path g a t = Ok (Some p) ->
  walk g a p t /\ (2 <= length p)%nat /\
  forall q, walk g a q t -> q <> [a] -> (length p <= length q)%nat.
Proof.
  intros B H. apply (get_path_first _ _ _ _ _ B) in H as (ks & (Hn & R & L) & M).
  destruct (route_nonempty _ _ _ _ R) as (p' & Ep & Lp).
  split; [rewrite <- L; eapply route_walk; eauto|]. split.
  - subst p. cbn. destruct ks; [congruence|cbn in Lp; lia].
  - intros q W Hq. destruct (walk_route _ _ _ _ W) as (js & R' & L' & N').
    assert (Hl : leads g a js t q).
    { repeat split; auto. intros ->. cbn in R'. congruence. }
    subst p. cbn [length]. destruct (M _ _ Hl) as [->|[H|[H _]]]; lia.
Qed.

(** From an occurrence to itself. *)
Lemma get_path_self es g a : related es g ->
  get_path g a a = Ok (match neighbours g a with
                       | [] => None
                       | b :: _ => Some (if has (neighbours g a) a then [a; a] else [a; b; a])
                       end).
Proof.
  intros Rl. destruct (related_built _ _ Rl) as (es' & B).
  destruct (neighbours g a) as [|b l] eqn:E.
  - apply (get_path_none _ _ _ _ B). intros p W. inversion W as [|? y ? ? H]; subst; auto.
    unfold edge in H. rewrite E in H. destruct H.
  - pose proof (built_nodup _ _ B) as Nd.
    destruct (has (b :: l) a) eqn:Ha.
    + apply has_In in Ha. apply In_nth_error in Ha as (k & Hk).
      apply (get_path_first _ _ _ _ _ B). exists [k]. split.
      * repeat split; [discriminate|]. cbn. rewrite E, Hk. reflexivity.
      * intros js q (Hn & R & L). destruct js as [|j [|j' js]]; [congruence| |right; left; cbn; lia].
        left. f_equal. cbn in R. destruct (nth_error (neighbours g a) j) as [y|] eqn:Ej; [|discriminate].
        inversion R; subst. cbn in L. subst y. specialize (Nd a). rewrite NoDup_nth_error in Nd. apply Nd; [|congruence].
        apply nth_error_Some. congruence.
    + apply has_not in Ha.
      assert (Hb : edge g b a). { apply (related_sym _ _ Rl). unfold edge. rewrite E. now left. }
      apply In_nth_error in Hb as (k & Hk).
      apply (get_path_first _ _ _ _ _ B). exists [0%nat; k]. split.
      * repeat split; [discriminate|]. cbn. rewrite E. cbn. rewrite Hk. reflexivity.
      * intros js q (Hn & R & L). destruct js as [|j [|j' [|j'' js]]]; [congruence| | |right; left; cbn; lia].
        { exfalso. cbn in R. rewrite E in R. destruct (nth_error (b :: l) j) as [y|] eqn:Ej; [|discriminate].
          inversion R; subst. cbn in L. subst y. apply Ha. eapply nth_error_In; eauto. }
        destruct j as [|j].
        { left. f_equal. f_equal. cbn in R. rewrite E in R. cbn in R.
          destruct (nth_error (neighbours g b) j') as [y|] eqn:Ej; [|discriminate]. inversion R; subst. cbn in L. subst y.
          specialize (Nd b). rewrite NoDup_nth_error in Nd. apply Nd; [|congruence]. apply nth_error_Some. congruence. }
        right. right. split; auto. constructor. lia.
Qed.

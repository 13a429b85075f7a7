(** Validation accepts exactly the valid schemas and reports exactly the first fault. *)
From Verif Require Import Schema Validator ValidSpec.

(** Every result is Ok, or stops with one report. *)
Definition fine {A} (r : res A) : Prop := exists a, r = Ok a.
Definition stops {A} (r : res A) (z : report) : Prop :=
  match r, z with Err e, inl e' => e = e' | Panic p, inr p' => p = p' | _, _ => False end.

Lemma fine_ok {A} (a : A) : fine (Ok a). Proof. exists a; reflexivity. Qed.
Lemma fine_err {A} e : ~ fine (Err e : res A). Proof. intros [a H]; discriminate. Qed.
Lemma stops_ok {A} (a : A) z : ~ stops (Ok a) z. Proof. destruct z; auto. Qed.
Lemma stops_err {A} e z : stops (Err e : res A) z <-> z = inl e.
Proof. destruct z; cbn; split; intros H; try congruence; try contradiction; discriminate. Qed.
Lemma stops_panic {A} p z : stops (Panic p : res A) z <-> z = inr p.
Proof. destruct z; cbn; split; intros H; try congruence; try contradiction; discriminate. Qed.
Lemma fine_or {A} (r : res A) : fine r \/ exists z, stops r z.
Proof. destruct r as [a|e|p]; [left; eexists; reflexivity|right; exists (inl e); reflexivity|right; exists (inr p); reflexivity]. Qed.
Lemma fine_stops {A} (r : res A) z : fine r -> stops r z -> False.
Proof. intros [a ->]. apply stops_ok. Qed.
Lemma stops_fun {A} (r : res A) z z' : stops r z -> stops r z' -> z = z'.
Proof. destruct r, z, z'; cbn; intros; try contradiction; congruence. Qed.

Lemma bind_fine {A B} (m : res A) (k : A -> res B) : fine (bind m k) <-> exists a, m = Ok a /\ fine (k a).
Proof.
  destruct m as [a|e|p]; cbn; split.
  - eauto.
  - intros (a' & H & Hk). injection H as <-. exact Hk.
  - intros H; destruct (fine_err _ H).
  - intros (a & H & _); discriminate.
  - intros [a H]; discriminate.
  - intros (a & H & _); discriminate.
Qed.
Lemma bind_stops {A B} (m : res A) (k : A -> res B) z :
  stops (bind m k) z <-> stops m z \/ exists a, m = Ok a /\ stops (k a) z.
Proof.
  destruct m as [a|e|p]; cbn; split; auto.
  - right; eauto.
  - intros [H|(a' & H & Hk)]; [destruct z; contradiction|]. injection H as <-. exact Hk.
  - intros [H|(a' & H & Hk)]; [exact H|discriminate].
  - intros [H|(a' & H & Hk)]; [exact H|discriminate].
Qed.

(** * each and first_bad *)
Lemma each_nil {A} (ok : list A -> A -> Prop) : each ok [].
Proof. intros pre a post H. destruct pre; discriminate. Qed.
Lemma each_snoc {A} (ok : list A -> A -> Prop) l a : each ok (l ++ [a]) <-> each ok l /\ ok l a.
Proof.
  split.
  - intros H. split.
    + intros pre b post E. apply (H pre b (post ++ [a])). rewrite E, <- app_assoc. reflexivity.
    + apply (H l a []). reflexivity.
  - intros [H1 H2] pre b post E. destruct post as [|c post] using rev_ind.
    + apply app_inj_tail in E as [-> ->]. exact H2.
    + clear IHpost. rewrite app_comm_cons, app_assoc in E. apply app_inj_tail in E as [-> _]. apply (H1 pre b post eq_refl).
Qed.
Lemma each_app {A} (ok : list A -> A -> Prop) l r : each ok (l ++ r) -> each ok l.
Proof. intros H pre a post E. apply (H pre a (post ++ r)). rewrite E, <- app_assoc. reflexivity. Qed.
Lemma each_Forall {A} (P : A -> Prop) l : each (fun _ a => P a) l <-> Forall P l.
Proof.
  rewrite Forall_forall. split.
  - intros H a Ha. apply in_split in Ha as (pre & post & E). exact (H pre a post E).
  - intros H pre a post ->. apply H. apply in_or_app; right; left; reflexivity.
Qed.
Lemma each_NoDup {A} (name : A -> str) l : each (fresh name) l <-> NoDup (map name l).
Proof.
  induction l as [|a l IH] using rev_ind.
  - split; intros _; [constructor|apply each_nil].
  - rewrite each_snoc, IH, map_app. cbn. unfold fresh. split.
    + intros [H1 H2]. apply (NoDup_Add (Add_app (name a) (map name l) [])). rewrite app_nil_r. auto.
    + intros H. apply (NoDup_Add (Add_app (name a) (map name l) [])) in H. rewrite app_nil_r in H. tauto.
Qed.
Lemma each_and {A} (P Q : list A -> A -> Prop) l : each (fun pre a => P pre a /\ Q pre a) l <-> each P l /\ each Q l.
Proof.
  split.
  - intros H. split; intros pre a post E; apply (H pre a post E).
  - intros [H1 H2] pre a post E. split; [apply (H1 pre a post E)|apply (H2 pre a post E)].
Qed.
Lemma each_ext {A} (P Q : list A -> A -> Prop) l : (forall pre a, P pre a <-> Q pre a) -> (each P l <-> each Q l).
Proof. intros H. split; intros HH pre a post E; apply H; apply (HH pre a post E). Qed.
Lemma first_bad_ext {A} (P Q : list A -> A -> Prop) (B C : list A -> A -> report -> Prop) l z :
  (forall pre a, P pre a <-> Q pre a) -> (forall pre a, B pre a z <-> C pre a z) -> (first_bad P B l z <-> first_bad Q C l z).
Proof.
  intros H1 H2. unfold first_bad. split; intros (pre & a & post & E & He & Hb); exists pre, a, post; (split; [exact E|]);
    (split; [eapply each_ext; [|exact He]; intros; rewrite H1; reflexivity|apply H2; exact Hb]).
Qed.

(** * Loops *)
Section loop.
Context {A S : Type} (f : A -> S -> res S) (I : list A -> S -> Prop).
Context (ok : list A -> A -> Prop) (bad : list A -> A -> report -> Prop).
Hypothesis Hok : forall pre a s, I pre s -> (fine (f a s) <-> ok pre a).
Hypothesis Hst : forall pre a s s', I pre s -> f a s = Ok s' -> I (pre ++ [a]) s'.
Hypothesis Hbad : forall pre a s z, I pre s -> (stops (f a s) z <-> bad pre a z).

Lemma foreach_gen l : forall pre s, I pre s -> each ok pre ->
  (fine (foreach f l s) <-> each ok (pre ++ l)) /\
  (forall s', foreach f l s = Ok s' -> I (pre ++ l) s') /\
  (forall z, stops (foreach f l s) z <-> exists q a r, l = q ++ a :: r /\ each ok (pre ++ q) /\ bad (pre ++ q) a z).
Proof.
  induction l as [|a l IH]; intros pre s HI He; cbn [foreach].
  - rewrite app_nil_r. split; [split; [auto|intros; apply fine_ok]|]. split.
    + intros s' E; injection E as <-; exact HI.
    + intros z. split; [intros H; destruct (stops_ok _ _ H)|]. intros (q & b & r & E & _). destruct q; discriminate.
  - destruct (f a s) as [s1|e|p] eqn:Ef; cbn [bind].
    + assert (Ha : ok pre a) by (apply (Hok pre a s HI); rewrite Ef; apply fine_ok).
      assert (H1 : I (pre ++ [a]) s1) by (apply (Hst pre a s s1 HI Ef)).
      assert (H2 : each ok (pre ++ [a])) by (apply each_snoc; auto).
      destruct (IH _ _ H1 H2) as (G1 & G2 & G3). rewrite <- app_assoc in G1, G2. cbn in G1, G2.
      split; [exact G1|]. split; [exact G2|]. intros z. rewrite G3. split.
      * intros (q & b & r & -> & Hq & Hb). exists (a :: q), b, r. split; [reflexivity|].
        rewrite <- app_assoc in Hq, Hb. auto.
      * intros (q & b & r & E & Hq & Hb). destruct q as [|a' q]; cbn in E; injection E as <- ->.
        { rewrite app_nil_r in Hb. apply (Hbad pre a s z HI) in Hb. rewrite Ef in Hb. destruct (stops_ok _ _ Hb). }
        { exists q, b, r. rewrite <- app_assoc. auto. }
    + assert (Hn : ~ ok pre a) by (intros H; apply (Hok pre a s HI) in H; rewrite Ef in H; destruct (fine_err _ H)).
      split; [|split; [discriminate|]].
      * split; [intros H; destruct (fine_err _ H)|]. intros H. exfalso. apply Hn. apply (H pre a l eq_refl).
      * intros z. rewrite stops_err. split.
        { intros ->. exists [], a, l. rewrite app_nil_r. split; [reflexivity|]. split; [exact He|]. apply (Hbad pre a s _ HI). rewrite Ef. reflexivity. }
        { intros (q & b & r & E & Hq & Hb). destruct q as [|a' q]; cbn in E; injection E as <- ->.
          - rewrite app_nil_r in Hb. apply (Hbad pre a s z HI) in Hb. rewrite Ef in Hb. apply stops_err in Hb. exact Hb.
          - exfalso. apply Hn. apply (Hq pre a q eq_refl). }
    + assert (Hn : ~ ok pre a) by (intros H; apply (Hok pre a s HI) in H; rewrite Ef in H; destruct H; discriminate).
      split; [|split; [discriminate|]].
      * split; [intros [? H]; discriminate|]. intros H. exfalso. apply Hn. apply (H pre a l eq_refl).
      * intros z. rewrite stops_panic. split.
        { intros ->. exists [], a, l. rewrite app_nil_r. split; [reflexivity|]. split; [exact He|]. apply (Hbad pre a s _ HI). rewrite Ef. reflexivity. }
        { intros (q & b & r & E & Hq & Hb). destruct q as [|a' q]; cbn in E; injection E as <- ->.
          - rewrite app_nil_r in Hb. apply (Hbad pre a s z HI) in Hb. rewrite Ef in Hb. apply stops_panic in Hb. exact Hb.
          - exfalso. apply Hn. apply (Hq pre a q eq_refl). }
Qed.

Lemma foreach_spec l s : I [] s ->
  (fine (foreach f l s) <-> each ok l) /\ (forall s', foreach f l s = Ok s' -> I l s') /\
  (forall z, stops (foreach f l s) z <-> first_bad ok bad l z).
Proof.
  intros HI. destruct (foreach_gen l [] s HI (each_nil ok)) as (H1 & H2 & H3). auto.
Qed.
End loop.

(** * Maps *)
Definition keys {V} (m : gomap V) (l : list str) : Prop := forall k, has k m = true <-> In k l.
Lemma keys_nil {V} : keys ([] : gomap V) []. Proof. intros k; split; [discriminate|intros []]. Qed.
Lemma get_put {V} k k' (v : V) m : get k (put k' v m) = if str_eqb k k' then Some v else get k m.
Proof. reflexivity. Qed.
Lemma has_put {V} k k' (v : V) m : has k (put k' v m) = str_eqb k k' || has k m.
Proof. unfold has. rewrite get_put. destruct (str_eqb k k'); reflexivity. Qed.
Lemma keys_put {V} k (v : V) m l : keys m l -> keys (put k v m) (l ++ [k]).
Proof.
  intros H k'. rewrite has_put, orb_true_iff, (H k'), in_app_iff, str_eqb_eq. cbn. intuition congruence.
Qed.
Lemma keys_has {V} k (m : gomap V) l : keys m l -> (has k m = false <-> ~ In k l).
Proof. intros H. rewrite <- (H k). destruct (has k m); split; congruence. Qed.
Lemma keys_equiv {V} (m : gomap V) l l' : keys m l -> (forall k, In k l <-> In k l') -> keys m l'.
Proof. intros H E k. rewrite (H k). apply E. Qed.

(** A duplicate check is a loop over a growing map. *)
Lemma dup_step {V} {B} k (m : gomap V) l s (r : res B) : keys m l ->
  (fine (if has k m then Err (wrap s k) else r) <-> ~ In k l /\ fine r) /\
  (forall z, stops (if has k m then Err (wrap s k) else r) z <-> In k l /\ says s k z \/ ~ In k l /\ stops r z).
Proof.
  intros H. destruct (has k m) eqn:E.
  - apply H in E. split.
    + split; [intros Hf; destruct (fine_err _ Hf)|tauto].
    + intros z. rewrite stops_err. unfold says, wrap. tauto.
  - apply (keys_has k m l H) in E. split; [tauto|]. intros z. tauto.
Qed.

(** Loops without state. *)
Lemma foreach_unit {A} (f : A -> unit -> res unit) (ok : A -> Prop) (bad : A -> report -> Prop) l :
  (forall a, fine (f a tt) <-> ok a) -> (forall a z, stops (f a tt) z <-> bad a z) ->
  (fine (foreach f l tt) <-> Forall ok l) /\
  (forall z, stops (foreach f l tt) z <-> first_bad (fun _ => ok) (fun _ => bad) l z).
Proof.
  intros H1 H2. destruct (foreach_spec f (fun _ _ => True) (fun _ => ok) (fun _ => bad)) with (l := l) (s := tt) as (G1 & _ & G3); auto.
  - intros _ a [] _. apply H1.
  - intros _ a [] z _. apply H2.
  - rewrite each_Forall in G1. auto.
Qed.

Lemma fine_unit (r : res unit) : fine r <-> r = Ok tt.
Proof. split; [intros [[] ->]; reflexivity|intros ->; apply fine_ok]. Qed.

(** A set of strings checked for repetition. *)
Lemma nodup_loop {A} (name : A -> str) s (f : A -> gomap bool -> res (gomap bool)) l :
  (forall a m, f a m = if has (name a) m then Err (wrap s (name a)) else Ok (put (name a) true m)) ->
  (fine (foreach f l []) <-> NoDup (map name l)) /\
  (forall z, stops (foreach f l []) z <-> first_bad (fresh name) (dup name s) l z).
Proof.
  intros Hf.
  destruct (foreach_spec f (fun pre m => keys m (map name pre)) (fresh name) (dup name s)) with (l := l) (s := ([] : gomap bool)) as (G1 & _ & G3).
  - intros pre a m HI. rewrite Hf. destruct (dup_step (B := gomap bool) (name a) m _ s (Ok (put (name a) true m)) HI) as [D1 _]. rewrite D1. unfold fresh.
    split; [tauto|]. intros H; split; [exact H|apply fine_ok].
  - intros pre a m m' HI E. rewrite Hf in E. destruct (has (name a) m); [discriminate|]. injection E as <-.
    rewrite map_app. apply keys_put; exact HI.
  - intros pre a m z HI. rewrite Hf. destruct (dup_step (B := gomap bool) (name a) m _ s (Ok (put (name a) true m)) HI) as [_ D2]. rewrite D2. unfold dup.
    split; [|tauto]. intros [H|[_ H]]; [exact H|destruct (stops_ok _ _ H)].
  - apply keys_nil.
  - rewrite each_NoDup in G1. auto.
Qed.

(** * Columns *)
Lemma bad_attr_spec ct at_ : bad_attr ct at_ = false <-> attr_allowed ct at_.
Proof.
  unfold bad_attr, attr_allowed. rewrite orb_false_iff, !andb_false_iff, !orb_false_iff, !str_eqb_neq.
  unfold ColInt, ColText, AttrMinLength, AttrMaxLength, AttrMin, AttrMax.
  destruct (str_eq_dec ct (lit "int")), (str_eq_dec ct (lit "text")); tauto.
Qed.
Lemma bad_attr_spec' ct at_ : bad_attr ct at_ = true <-> ~ attr_allowed ct at_.
Proof. rewrite <- bad_attr_spec. destruct (bad_attr ct at_); split; congruence. Qed.

Lemma visit_column_spec c :
  (fine (visit_column c) <-> valid_column c) /\ (forall z, stops (visit_column c) z <-> column_bad c z).
Proof.
  unfold visit_column.
  destruct (foreach_spec (visit_attr (co_type c)) (fun pre m => keys m (map at_type pre))
    (fun pre a => fresh at_type pre a /\ attr_allowed (co_type c) (at_type a))
    (fun pre a z => dup at_type DuplicateAttribute pre a z \/
       fresh at_type pre a /\ ~ attr_allowed (co_type c) (at_type a) /\
       says AttributeNotAllow (co_type c ++ lit "(" ++ at_type a ++ lit ")") z)) with (l := elems (co_attrs c)) (s := ([] : gomap bool))
    as (G1 & _ & G3).
  - intros pre a m HI. unfold visit_attr.
    match goal with |- fine (if _ then _ else ?r) <-> _ => destruct (dup_step (at_type a) m _ DuplicateAttribute r HI) as [D1 _]; rewrite D1 end.
    unfold fresh. rewrite <- bad_attr_spec. destruct (bad_attr (co_type c) (at_type a)).
    + split; [intros [_ H]; destruct (fine_err _ H)|intros [_ H]; discriminate].
    + split; [tauto|]. intros [H _]. split; [exact H|apply fine_ok].
  - intros pre a m m' HI E. unfold visit_attr in E. destruct (has (at_type a) m); [discriminate|].
    destruct (bad_attr (co_type c) (at_type a)); [discriminate|]. injection E as <-. rewrite map_app. apply keys_put; exact HI.
  - intros pre a m z HI. unfold visit_attr.
    match goal with |- stops (if _ then _ else ?r) _ <-> _ => destruct (dup_step (at_type a) m _ DuplicateAttribute r HI) as [_ D2]; rewrite D2 end.
    unfold dup, fresh. rewrite <- bad_attr_spec'. destruct (bad_attr (co_type c) (at_type a)).
    + rewrite stops_err. unfold says, wrap. intuition.
    + split; [|intuition discriminate]. intros [H|[_ H]]; [auto|destruct (stops_ok _ _ H)].
  - apply keys_nil.
  - split.
    + rewrite bind_fine. unfold valid_column. rewrite each_and, each_NoDup, each_Forall, Forall_forall in G1. rewrite <- G1.
      split; [intros (m & Hm & _); exists m; exact Hm|]. intros [m Hm]. exists m. split; [exact Hm|apply fine_ok].
    + intros z. rewrite bind_stops, G3. unfold column_bad. split; [|auto]. intros [H|(m & _ & H)]; [exact H|destruct (stops_ok _ _ H)].
Qed.

(** A list of names looked up in a map. *)
Lemma missing_spec {V} (m : gomap V) known msg l : keys m known ->
  (fine (foreach (fun n _ => if has n m then Ok tt else Err (wrap ColumnNotFound (msg n))) l tt) <-> incl l known) /\
  (forall z, stops (foreach (fun n _ => if has n m then Ok tt else Err (wrap ColumnNotFound (msg n))) l tt) z <-> missing known msg l z).
Proof.
  intros HK.
  destruct (foreach_unit (fun n _ => if has n m then Ok tt else Err (wrap ColumnNotFound (msg n))) (fun n => In n known)
    (fun n z => ~ In n known /\ says ColumnNotFound (msg n) z) l) as [H1 H2].
  - intros n. rewrite <- (HK n). destruct (has n m); [split; [auto|intros; apply fine_ok]|]. split; [intros H; destruct (fine_err _ H)|discriminate].
  - intros n z. rewrite <- (HK n). destruct (has n m).
    + split; [intros H; destruct (stops_ok _ _ H)|intros [H _]; congruence].
    + rewrite stops_err. unfold says, wrap. split; [intros ->; split; congruence|tauto].
  - split; [|exact H2]. rewrite H1, Forall_forall. reflexivity.
Qed.

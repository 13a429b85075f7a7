(** The parser accepts exactly the programs of the grammar and returns their tree. *)
From Verif Require Import Cst Parser ExprProof.

Definition tok_ok (t : tok) : Prop := forall w, literal_of (ty t) = Some w -> tx t = w.
Definition toks_ok (ts : list tok) : Prop := Forall tok_ok ts.

Definition sound {A} (p : list tok -> option (A * list tok)) (y : A -> list tok) (wf : A -> Prop) : Prop :=
  forall ts a r, toks_ok ts -> p ts = Some (a, r) -> ts = y a ++ r /\ wf a.
Definition complete {A} (p : list tok -> option (A * list tok)) (y : A -> list tok) (wf : A -> Prop)
    (fol : list tok -> Prop) : Prop :=
  forall a r, wf a -> fol r -> p (y a ++ r) = Some (a, r).
(** The trees of a grammar expression. *)
Definition rep {A} (e : ebnf) (y : A -> list tok) (wf : A -> Prop) : Prop :=
  (forall ts, toks_ok ts -> derives e ts -> exists a, ts = y a /\ wf a) /\ (forall a, wf a -> derives e (y a)).

Definition all {A} : A -> Prop := fun _ => True.

Lemma toks_ok_app u v : toks_ok (u ++ v) <-> toks_ok u /\ toks_ok v.
Proof. apply Forall_app. Qed.
Lemma toks_ok_cons x v : toks_ok (x :: v) <-> tok_ok x /\ toks_ok v.
Proof. apply Forall_cons_iff. Qed.

Lemma kw_of x w : tok_ok x -> literal_of (ty x) = Some w -> x = kw (ty x).
Proof. destruct x as [t s]. unfold tok_ok, kw. cbn. intros H Hl. rewrite Hl. f_equal. apply H. exact Hl. Qed.

Lemma expect_s t ts s r : expect t ts = Some (s, r) -> ts = Tok t s :: r.
Proof. intros H. apply expect_some in H as (x & -> & <- & <-). destruct x; reflexivity. Qed.
Lemma expect_kw t ts s r : toks_ok ts -> expect t ts = Some (s, r) -> literal_of t <> None -> ts = kw t :: r.
Proof.
  intros Hok H Hl. apply expect_s in H. subst ts. apply toks_ok_cons in Hok as [H _].
  destruct (literal_of t) as [w|] eqn:E; [|congruence]. f_equal. apply (kw_of (Tok t s) w H E).
Qed.
Lemma expect_c t s r : expect t (Tok t s :: r) = Some (s, r).
Proof. cbn. rewrite tt_eqb_refl. reflexivity. Qed.
Lemma expect_kwc t r : expect t (kw t :: r) = Some (tx (kw t), r).
Proof. apply expect_c. Qed.

Lemma many_app {A} (y : A -> list tok) a l : many y (a :: l) = y a ++ many y l.
Proof. reflexivity. Qed.

Lemma p_many_sound {A} st (p : list tok -> option (A * list tok)) y wf n : sound p y wf ->
  sound (p_many st p n) (many y) (Forall wf).
Proof.
  intros Hp. induction n as [|n IH]; intros ts l r Hok H; cbn [p_many] in H.
  - destruct (st ts); [discriminate|]. injection H as <- <-. split; [reflexivity|constructor].
  - destruct (st ts).
    + destruct (p ts) as [[a r1]|] eqn:E1; [|discriminate].
      destruct (p_many st p n r1) as [[l2 r2]|] eqn:E2; [|discriminate]. injection H as <- <-.
      apply Hp in E1 as [-> Ha]; auto. apply toks_ok_app in Hok as [_ Hok].
      apply IH in E2 as [-> Hl]; auto. rewrite many_app, <- app_assoc. split; [reflexivity|constructor; assumption].
    + injection H as <- <-. split; [reflexivity|constructor].
Qed.

Lemma p_many_complete {A} st (p : list tok -> option (A * list tok)) y wf fol :
  complete p y wf fol -> (forall a r, wf a -> st (y a ++ r) = true) -> (forall a r, wf a -> fol (y a ++ r)) ->
  forall n l r, Forall wf l -> fol r -> st r = false -> (length l <= n)%nat ->
  p_many st p n (many y l ++ r) = Some (l, r).
Proof.
  intros Hp Hs Hf. induction n as [|n IH]; intros l r Hl Hr Hst Hn.
  - destruct l; [|cbn in Hn; lia]. cbn. rewrite Hst. reflexivity.
  - destruct Hl as [|a l Ha Hl]; [cbn; rewrite Hst; reflexivity|].
    cbn in Hn. rewrite many_app, <- app_assoc. cbn [p_many]. rewrite Hs by exact Ha. rewrite Hp; [|exact Ha|].
    + rewrite IH; auto. lia.
    + destruct Hl as [|b l Hb Hl]; [exact Hr|]. rewrite many_app, <- app_assoc. apply Hf; exact Hb.
Qed.

Lemma many_length {A} (y : A -> list tok) (wf : A -> Prop) l : (forall a, wf a -> y a <> []) -> Forall wf l ->
  (length l <= length (many y l))%nat.
Proof.
  intros Hn Hl. induction Hl as [|a l Ha Hl IH]; [cbn; lia|]. rewrite many_app, app_length. cbn [length].
  specialize (Hn a Ha). destruct (y a); [congruence|cbn; lia].
Qed.

(** The form in which loops occur: fuel is the length of the input. *)
Lemma p_many_c {A} st (p : list tok -> option (A * list tok)) y wf fol l r :
  complete p y wf fol -> (forall a r, wf a -> st (y a ++ r) = true) -> (forall a r, wf a -> fol (y a ++ r)) ->
  (forall a, wf a -> y a <> []) -> Forall wf l -> fol r -> st r = false ->
  p_many st p (length (many y l ++ r)) (many y l ++ r) = Some (l, r).
Proof.
  intros Hp Hs Hf Hn Hl Hr Hst. eapply p_many_complete; eauto. rewrite app_length.
  pose proof (many_length y wf l Hn Hl). lia.
Qed.

Lemma p_comma_sound {A} (p : list tok -> option (A * list tok)) y wf : sound p y wf ->
  sound (p_comma p) (fun a => kw COMMA :: y a) wf.
Proof.
  intros Hp ts a r Hok H. unfold p_comma in H. destruct (expect COMMA ts) as [[s r1]|] eqn:E; [|discriminate].
  apply expect_kw in E; auto; [|discriminate]. subst ts. apply toks_ok_cons in Hok as [_ Hok].
  apply Hp in H as [-> Ha]; auto.
Qed.
Lemma p_comma_complete {A} (p : list tok -> option (A * list tok)) y wf fol : complete p y wf fol ->
  complete (p_comma p) (fun a => kw COMMA :: y a) wf fol.
Proof. intros Hp a r Ha Hr. unfold p_comma. cbn [app]. rewrite expect_kwc. apply Hp; assumption. Qed.

Lemma p_commas_sound {A} st (p : list tok -> option (A * list tok)) y wf n : sound p y wf ->
  sound (p_many st (p_comma p) n) (commas y) (Forall wf).
Proof. intros H. apply p_many_sound, p_comma_sound, H. Qed.

Lemma p_commas_c {A} st (p : list tok -> option (A * list tok)) y wf fol l r :
  complete p y wf fol -> (forall a r, wf a -> st (kw COMMA :: y a ++ r) = true) -> (forall r, fol (kw COMMA :: r)) ->
  Forall wf l -> fol r -> st r = false ->
  p_many st (p_comma p) (length (commas y l ++ r)) (commas y l ++ r) = Some (l, r).
Proof.
  intros Hp Hs Hf Hl Hr Hst. unfold commas.
  apply (p_many_c st (p_comma p) (fun a => kw COMMA :: y a) wf fol); [| | | |exact Hl|exact Hr|exact Hst].
  - apply p_comma_complete; exact Hp.
  - exact Hs.
  - intros a r' _. apply Hf.
  - intros a _. discriminate.
Qed.

Lemma p_paren_sound {A} (p : list tok -> option (A * list tok)) y wf : sound p y wf ->
  sound (p_paren p) (fun a => kw L_PAREN :: y a ++ [kw R_PAREN]) wf.
Proof.
  intros Hp ts a r Hok H. unfold p_paren in H.
  destruct (expect L_PAREN ts) as [[s r1]|] eqn:E; [|discriminate].
  apply expect_kw in E; auto; [|discriminate]. subst ts. apply toks_ok_cons in Hok as [_ Hok].
  destruct (p r1) as [[a' r2]|] eqn:E1; [|discriminate]. apply Hp in E1 as [-> Ha]; auto. apply toks_ok_app in Hok as [_ Hok].
  destruct (expect R_PAREN r2) as [[s2 r3]|] eqn:E; [|discriminate].
  apply expect_kw in E; auto; [|discriminate]. subst r2. injection H as <- <-. cbn. rewrite <- app_assoc. auto.
Qed.
Lemma p_paren_complete {A} (p : list tok -> option (A * list tok)) y wf (fol : list tok -> Prop) : complete p y wf fol ->
  (forall r, fol (kw R_PAREN :: r)) -> complete (p_paren p) (fun a => kw L_PAREN :: y a ++ [kw R_PAREN]) wf all.
Proof.
  intros Hp Hf a r Ha _. unfold p_paren. cbn [app]. rewrite expect_kwc, <- app_assoc. cbn [app].
  rewrite Hp by auto. rewrite expect_kwc. reflexivity.
Qed.

Lemma p_map_sound {A B} (f : A -> B) p y wf y' (wf' : B -> Prop) : sound p y wf -> (forall a, y' (f a) = y a) ->
  (forall a, wf a -> wf' (f a)) -> sound (fun ts => p_map f (p ts)) y' wf'.
Proof.
  intros Hp Hy Hw ts b r Hok H. unfold p_map in H. destruct (p ts) as [[a r1]|] eqn:E; [|discriminate].
  injection H as <- <-. apply Hp in E as [-> Ha]; auto. rewrite Hy. auto.
Qed.

Lemma p_maybe_sound {A} l (p : list tok -> option (A * list tok)) y wf : sound p y wf ->
  sound (p_maybe l p) (opt y) (fun o => forall a, o = Some a -> wf a).
Proof.
  intros Hp ts o r Hok H. unfold p_maybe in H. destruct (la l ts).
  - unfold p_map in H. destruct (p ts) as [[a r1]|] eqn:E; [|discriminate]. injection H as <- <-.
    apply Hp in E as [-> Ha]; auto. split; [reflexivity|]. intros a' Ea. injection Ea as <-. exact Ha.
  - injection H as <- <-. split; [reflexivity|discriminate].
Qed.
Lemma p_maybe_complete {A} l (p : list tok -> option (A * list tok)) y wf (fol : list tok -> Prop) o r :
  complete p y wf fol -> (forall a r, wf a -> la l (y a ++ r) = true) -> (forall a, o = Some a -> wf a) -> fol r ->
  la l r = false -> p_maybe l p (opt y o ++ r) = Some (o, r).
Proof.
  intros Hp Hs Ho Hf Hr. unfold p_maybe. destruct o as [a|]; cbn [opt].
  - rewrite Hs by (apply Ho; reflexivity). rewrite Hp; auto.
  - cbn [app]. rewrite Hr. reflexivity.
Qed.

(** * Grammar expressions and trees *)

Lemma rep_many {A} e (y : A -> list tok) wf : rep e y wf -> rep (Many e) (many y) (Forall wf).
Proof.
  intros [H1 H2]. split.
  - intros ts Hok H. apply der_many in H as (l & -> & Hl). induction Hl as [|u l Hu Hl IH].
    + exists []. split; [reflexivity|constructor].
    + cbn in Hok. apply toks_ok_app in Hok as [Ho1 Ho2]. destruct (IH Ho2) as (k & Ek & Hk).
      destruct (H1 u Ho1 Hu) as (a & -> & Ha). exists (a :: k). cbn. rewrite Ek. split; [reflexivity|constructor; assumption].
  - intros l Hl. induction Hl as [|a l Ha Hl IH]; [constructor|]. cbn. constructor; auto.
Qed.
Lemma rep_kw t : literal_of t <> None -> rep (T t) (fun _ : unit => [kw t]) all.
Proof.
  intros Hl. destruct (literal_of t) as [w|] eqn:E; [|congruence]. split.
  - intros ts Hok H. apply der_t in H as (x & -> & Hx). apply toks_ok_cons in Hok as [Hx' _]. exists Datatypes.tt. split; [|exact I].
    rewrite (kw_of x w), Hx; [reflexivity|exact Hx'|rewrite Hx; exact E].
  - intros _ _. constructor. reflexivity.
Qed.
Lemma rep_commas {A} e (y : A -> list tok) wf : rep e y wf -> rep (Many (Seq (T COMMA) e)) (commas y) (Forall wf).
Proof.
  intros [H1 H2]. unfold commas. apply (rep_many _ (fun a => kw COMMA :: y a)). split.
  - intros ts Hok H. apply der_seq in H as (u & v & -> & Hu & Hv). apply toks_ok_app in Hok as [Ho1 Ho2].
    destruct (H1 v Ho2 Hv) as (a & -> & Ha). apply rep_kw in Hu as (z & -> & _); auto; [|discriminate]. exists a; auto.
  - intros a Ha. apply (d_seq _ _ [kw COMMA]); [constructor; reflexivity|auto].
Qed.
Lemma rep_opt {A} e (y : A -> list tok) wf : rep e y wf -> rep (Opt e) (opt y) (fun o => forall a, o = Some a -> wf a).
Proof.
  intros [H1 H2]. split.
  - intros ts Hok H. apply der_opt in H as [H|H].
    + destruct (H1 ts Hok H) as (a & -> & Ha). exists (Some a). split; [reflexivity|]. intros a' Ea; injection Ea as <-; exact Ha.
    + exists None. subst. split; [reflexivity|discriminate].
  - intros [a|] Ho; apply der_opt; [left; apply H2, Ho|right]; reflexivity.
Qed.

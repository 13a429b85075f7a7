(** The wording of messages: Message.v says what MessageSpec.v does. *)
From Coq Require Import ZArith Lia Bool.
From Verif Require Import Str Tokens LexSpec Lexer LexerProof Grammar ParseSpec ParseKF Atn AtnLexer AtnParser AtnParserTable GoParser Recovery LexPos LexPosProof FirstText MessageSpec Message MessageRun.
Local Open Scope Z_scope.

(** *** Quotes *)
Lemma replace_app c b u v : replace c b (u ++ v) = replace c b u ++ replace c b v.
Proof. induction u as [|x u IH]; [reflexivity|]. cbn [app replace]. rewrite IH. destruct (N.eqb x c); [apply app_assoc|reflexivity]. Qed.
Lemma escape_is s : escape_quote s = quoted s.
Proof.
  unfold escape_quote, quoted. f_equal. f_equal. induction s as [|c s IH]; [reflexivity|]. change (c :: s) with ([c] ++ s). rewrite !replace_app, IH. cbn [map concat app]. f_equal. clear.
  destruct (N.eqb_spec c 9) as [->|H9]; [reflexivity|]. destruct (N.eqb_spec c 10) as [->|H10]; [reflexivity|]. destruct (N.eqb_spec c 13) as [->|H13]; [reflexivity|].
  apply N.eqb_neq in H9, H10, H13. cbn [replace]. rewrite H9. cbn [replace]. rewrite H10. cbn [replace]. rewrite H13. reflexivity.
Qed.
(** On one line *)
Definition plain (c : N) : bool := negb (N.eqb c 9 || N.eqb c 10 || N.eqb c 13).
Lemma plain_line s : forallb plain s = true -> on_one_line s.
Proof. rewrite forallb_forall. intros H c Hc. specialize (H c Hc). unfold plain in H. rewrite negb_true_iff, !orb_false_iff, !N.eqb_neq in H. tauto. Qed.
Lemma quoted_plain s : forallb plain (quoted s) = true.
Proof.
  unfold quoted. rewrite !forallb_app. change (forallb plain (lit "'")) with true. rewrite andb_true_r, andb_true_l. induction s as [|c s IH]; [reflexivity|]. cbn [map concat]. rewrite forallb_app, IH, andb_true_r.
  destruct (N.eqb_spec c 9) as [->|H9]; [reflexivity|]. destruct (N.eqb_spec c 10) as [->|H10]; [reflexivity|]. destruct (N.eqb_spec c 13) as [->|H13]; [reflexivity|]. cbn. unfold plain.
  apply N.eqb_neq in H9, H10, H13. rewrite H9, H10, H13. reflexivity.
Qed.

(** *** The names *)
Definition type_of (t : Z) : option tt := if t =? -1 then None else nth_error all_tt (Z.to_nat t - 1).
Definition number (k : option tt) : Z := match k with None => -1 | Some k => Z.of_nat (tt_num k) end.
Definition all_names : list Z := -1 :: map (fun i => Z.of_nat i) (seq 1 84).
Lemma nameable_in t : nameable t = true <-> In t all_names.
Proof.
  unfold nameable, all_names. rewrite orb_true_iff, andb_true_iff, Z.eqb_eq, !Z.leb_le. cbn [In]. rewrite in_map_iff. split.
  - intros [->|H]; [left; reflexivity|]. right. exists (Z.to_nat t). rewrite in_seq. lia.
  - intros [<-|(i & <- & H)]; [left; reflexivity|]. rewrite in_seq in H. lia.
Qed.
Lemma names_ok : forallb (fun t => match element_name t with Some n => str_eqb n (called (type_of t)) && (number (type_of t) =? t) | None => false end) all_names = true. Proof. vm_compute. reflexivity. Qed.
Lemma names_plain : forallb (fun t => forallb plain (called (type_of t))) all_names = true. Proof. vm_compute. reflexivity. Qed.
Lemma name_of t : nameable t = true -> element_name t = Some (called (type_of t)) /\ number (type_of t) = t /\ forallb plain (called (type_of t)) = true.
Proof.
  intros H. apply nameable_in in H. pose proof names_ok as G. pose proof names_plain as K. rewrite forallb_forall in G, K. specialize (G t H). specialize (K t H). destruct (element_name t) as [n|]; [|discriminate G].
  rewrite andb_true_iff, Z.eqb_eq in G. destruct G as (G1 & G2). apply str_eqb_eq in G1. subst n. auto.
Qed.
Lemma elements_in l t : Forall (fun t => nameable t = true) l -> (In t (elements l) <-> In t l).
Proof.
  intros H. unfold elements. rewrite filter_In. split; [intros (_ & G); apply zmem_in; exact G|]. intros G. split; [|apply zmem_in; exact G]. rewrite Forall_forall in H. specialize (H t G). unfold nameable in H.
  apply in_map_iff. exists (Z.to_nat (t + 2)). rewrite in_seq. lia.
Qed.
Local Opaque elements element_name type_of called.
Lemma all_some_map {T U} (f : T -> option U) g l : (forall x, In x l -> f x = Some (g x)) -> all_some (map f l) = Some (map g l).
Proof. induction l as [|x l IH]; intros H; [reflexivity|]. cbn [map all_some]. rewrite (H x) by (left; reflexivity). rewrite IH by (intros y Hy; apply H; right; exact Hy). reflexivity. Qed.
Lemma commas_is x l : commas (x :: l) = separated (x :: l).
Proof. cbn [commas]. revert x. induction l as [|y l IH]; intros x; [apply app_nil_r|]. cbn [map concat]. rewrite <- app_assoc, IH. reflexivity. Qed.
Lemma separated_plain l : Forall (fun s => forallb plain s = true) l -> forallb plain (separated l) = true.
Proof.
  induction 1 as [|x l Hx Hl IH]; [reflexivity|]. cbn [separated]. destruct l as [|y l]; [exact Hx|]. rewrite !forallb_app, Hx, IH. reflexivity.
Qed.
(** The types that a list of numbers stands for, in the order of the message. *)
Definition types (l : list Z) : list (option tt) := map type_of (elements l).
Lemma token_string_is l : l <> [] -> Forall (fun t => nameable t = true) l ->
  token_string l = Some (enumerated (types l)) /\ types l <> [] /\ (forall k, In k (types l) -> In (number k) l) /\ forallb plain (enumerated (types l)) = true.
Proof.
  intros Hne Hn. assert (HE : Forall (fun t => nameable t = true) (elements l)). { apply Forall_forall. intros t Ht. apply (proj1 (elements_in l t Hn)) in Ht. rewrite Forall_forall in Hn. exact (Hn t Ht). }
  assert (Hne' : elements l <> []). { destruct l as [|t l]; [congruence|]. intros E. assert (Hin : In t (elements (t :: l))) by (apply (proj2 (elements_in _ t Hn)); left; reflexivity). rewrite E in Hin. destruct Hin. }
  assert (Ht : types l <> []) by (unfold types; destruct (elements l); [congruence|discriminate]).
  assert (HP : Forall (fun s => forallb plain s = true) (map called (types l))).
  { unfold types. rewrite map_map. apply Forall_map. apply Forall_forall. intros t Hin. rewrite Forall_forall in HE. apply name_of. exact (HE t Hin). }
  split; [|split; [exact Ht|split]].
  - unfold token_string. rewrite (all_some_map _ (fun t => called (type_of t))) by (intros t Hin; rewrite Forall_forall in HE; apply name_of; exact (HE t Hin)). unfold types. destruct (elements l) as [|t1 [|t2 r]]; [congruence|reflexivity|].
    cbn [map]. rewrite commas_is. cbn [enumerated map]. rewrite ?map_map. reflexivity.
  - intros k Hk. apply in_map_iff in Hk as (t & <- & Hin). rewrite Forall_forall in HE. destruct (name_of t (HE t Hin)) as (_ & E & _). rewrite E. exact (proj1 (elements_in l t Hn) Hin).
  - destruct (types l) as [|k1 [|k2 r]]; [congruence|inversion HP; assumption|]. cbn [enumerated]. rewrite !forallb_app, (separated_plain _ HP). reflexivity.
Qed.

(** *** The text of tokens *)
Definition ev (t : tok) : event := Token (Z.of_nat (tt_num (ty t))) (if is_layout (ty t) then 1 else 0) (tx t).
Lemma ev_shown t : shown (ev t) = negb (is_layout (ty t)). Proof. unfold shown, ev. destruct (is_layout (ty t)); reflexivity. Qed.
Lemma ev_count l : length (filter shown (map ev l)) = length (drop_layout l).
Proof. induction l as [|t l IH]; [reflexivity|]. cbn [map filter]. rewrite ev_shown. unfold drop_layout in *. cbn [filter]. destruct (is_layout (ty t)); cbn [negb length]; rewrite IH; reflexivity. Qed.
Lemma from_split x y : starts_shown y -> from (length (drop_layout y)) (map ev (x ++ y)) = map ev y.
Proof.
  intros Hy. induction x as [|t x IH]; cbn [app].
  - destruct y as [|t y]; [reflexivity|]. cbn [map from]. rewrite ev_shown, Hy. change (ev t :: map ev y) with (map ev (t :: y)). rewrite ev_count, Nat.eqb_refl. reflexivity.
  - cbn [map from]. change (ev t :: map ev (x ++ y)) with (map ev (t :: x ++ y)). rewrite ev_count, ev_shown. destruct (is_layout (ty t)) eqn:El; [exact IH|]. cbn [negb andb].
    replace (Nat.eqb (length (drop_layout (t :: x ++ y))) (length (drop_layout y))) with false; [exact IH|]. symmetry. apply Nat.eqb_neq. unfold drop_layout. cbn [filter]. rewrite El. cbn [negb length]. rewrite filter_app, app_length. lia.
Qed.
Lemma display_is x y : starts_shown y -> display (length (drop_layout y)) (map ev (x ++ y)) = quoted (token_text y).
Proof. intros Hy. unfold display, text_at. rewrite from_split by exact Hy. rewrite escape_is. destruct y; reflexivity. Qed.
Lemma between_is a b y : starts_shown (b ++ y) -> starts_shown y ->
  text_between (length (drop_layout (b ++ y))) (length (drop_layout y)) (map ev (a ++ b ++ y)) = concat (map tx (b ++ firstn 1 y)).
Proof.
  intros Hb Hy. unfold text_between. rewrite from_split by exact Hb. rewrite (app_assoc a b y), from_split by exact Hy. rewrite !map_length, app_length, Nat.add_sub.
  assert (E1 : firstn (length b) (map ev (b ++ y)) = map ev b) by (rewrite map_app, firstn_app, map_length, Nat.sub_diag; cbn [firstn]; rewrite app_nil_r; apply firstn_all2; rewrite map_length; lia).
  assert (E : map ev b ++ match map ev y with e :: _ => [e] | [] => [] end = map ev (b ++ firstn 1 y)) by (rewrite map_app; destruct y; reflexivity).
  rewrite E1, E, map_map. reflexivity.
Qed.
(** Splitting at a number of tokens left *)
Lemma split_left ts n : (n <= length (drop_layout ts))%nat -> exists x y, ts = x ++ y /\ length (drop_layout y) = n /\ starts_shown y.
Proof.
  intros H. destruct (split_visible ts (firstn (length (drop_layout ts) - n) (drop_layout ts)) (skipn (length (drop_layout ts) - n) (drop_layout ts))) as (x & y & E & _ & Ey & Hy); [symmetry; apply firstn_skipn|].
  exists x, y. split; [exact E|]. split; [rewrite Ey, skipn_length; lia|exact Hy].
Qed.

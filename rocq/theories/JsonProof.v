(** ToJSON writes JSON: the text is read as the document of the node, and has only harmless characters. *)
From Verif Require Import Str Schema Utf8Spec Utf8 Utf8Proof JsonSpec GoJson.
Local Open Scope N_scope.

(** ** Induction on Go values *)
Section Ind.
  Variable P : gval -> Prop.
  Hypothesis HS : forall s, P (GStr s). Hypothesis HB : forall b, P (GBool b).
  Hypothesis HNS : P GNilSlice. Hypothesis HNI : P GNilIface.
  Hypothesis HI : forall v, P v -> P (GIface v).
  Hypothesis HL : forall l, Forall P l -> P (GSlice l).
  Hypothesis HF : forall fs, Forall (fun f => P (snd f)) fs -> P (GStruct fs).
  Fixpoint gval_all (v : gval) : P v :=
    match v with
    | GStr s => HS s | GBool b => HB b | GNilSlice => HNS | GNilIface => HNI | GIface v => HI v (gval_all v)
    | GSlice l => HL l ((fix go l : Forall P l := match l with [] => Forall_nil P | v :: r => Forall_cons v (gval_all v) (go r) end) l)
    | GStruct fs => HF fs ((fix go fs : Forall (fun f => P (snd f)) fs :=
        match fs with [] => Forall_nil _ | f :: r => Forall_cons f (gval_all (snd f)) (go r) end) fs)
    end.
End Ind.

(** ** Pieces *)
Fixpoint join (sep : list N) (l : list (list N)) : list N :=
  match l with [] => [] | [x] => x | x :: r => x ++ sep ++ join sep r end.
Lemma join_cons sep x y l : join sep (x :: y :: l) = x ++ sep ++ join sep (y :: l).
Proof. reflexivity. Qed.
(** The fields written: name and value. *)
Definition written (fs : list (str * bool * gval)) : list (str * gval) :=
  flat_map (fun '(n, oe, v) => if oe && is_empty v then [] else [(n, v)]) fs.

Lemma marshal_slice bf l : marshal bf (GSlice l) = lit "[" ++ join (lit ",") (map (marshal bf) l) ++ lit "]".
Proof.
  cbn [marshal]. f_equal. f_equal. destruct l as [|v l]; [reflexivity|]. cbn [app map]. revert v.
  induction l as [|w l IH]; intros v; [cbn [map join]; apply app_nil_r|]. rewrite IH. reflexivity.
Qed.
Lemma marshal_struct bf fs : marshal bf (GStruct fs) =
  lit "{" ++ join (lit ",") (map (fun f => quote bf (fst f) ++ lit ":" ++ marshal bf (snd f)) (written fs)) ++ lit "}".
Proof.
  cbn [marshal].
  match goal with |- ?g (lit "{") fs = _ => set (go := g) end.
  assert (Hc : forall fs, go (lit ",") fs = concat (map (fun f => lit "," ++ quote bf (fst f) ++ lit ":" ++ marshal bf (snd f)) (written fs)) ++ lit "}").
  { clear fs. induction fs as [|[[n oe] v] fs IH]; [reflexivity|]. cbn [go written flat_map]. destruct (oe && is_empty v); [exact IH|].
    cbn [app map concat fst snd]. fold (written fs). rewrite IH, <- !app_assoc. reflexivity. }
  induction fs as [|[[n oe] v] fs IH]; [reflexivity|]. cbn [go written flat_map]. destruct (oe && is_empty v); [exact IH|].
  cbn [app map]. fold (written fs). rewrite Hc. cbn [fst snd]. f_equal. clear.
  revert n v. induction (written fs) as [|[m w] l IH]; intros n v.
  - cbn [map concat join app]. rewrite <- !app_assoc. reflexivity.
  - specialize (IH m w). cbn [map concat fst snd] in *. rewrite join_cons. rewrite <- !app_assoc in *. rewrite IH. reflexivity.
Qed.

(** The indented form, written directly. *)
Definition block (o c : list N) (d : nat) (items : list (list N)) : list N :=
  match items with
  | [] => o ++ c
  | _ => o ++ newline (S d) ++ join (lit "," ++ newline (S d)) items ++ newline d ++ c
  end.
Fixpoint pretty (bf : bool) (d : nat) (v : gval) : list N :=
  match v with
  | GStr s => quote bf s
  | GBool b => if b then lit "true" else lit "false"
  | GNilSlice | GNilIface => lit "null"
  | GIface v => pretty bf d v
  | GSlice l => block (lit "[") (lit "]") d (map (pretty bf (S d)) l)
  | GStruct fs => block (lit "{") (lit "}") d
      (flat_map (fun '(n, oe, v) => if oe && is_empty v then [] else [quote bf n ++ lit ": " ++ pretty bf (S d) v]) fs)
  end.
Lemma pretty_struct bf d fs : pretty bf d (GStruct fs) =
  block (lit "{") (lit "}") d (map (fun f => quote bf (fst f) ++ lit ": " ++ pretty bf (S d) (snd f)) (written fs)).
Proof.
  cbn [pretty]. f_equal. induction fs as [|[[n oe] v] fs IH]; [reflexivity|]. cbn [written flat_map]. destruct (oe && is_empty v); [exact IH|].
  cbn [app map fst snd]. fold (written fs). rewrite IH. reflexivity.
Qed.

(** ** Strings *)
(** Bytes that Indent copies inside a string. *)
Definition copied (l : list N) : Prop := forall need d r, indent SStr need d (l ++ r) = l ++ indent SStr need d r.
Lemma copied_nil : copied []. Proof. intros need d r. reflexivity. Qed.
Lemma copied_app a b : copied a -> copied b -> copied (a ++ b).
Proof. intros Ha Hb need d r. rewrite <- !app_assoc, Ha, Hb. reflexivity. Qed.
Lemma copied_one c : c <> 34 -> c <> 92 -> copied [c].
Proof. intros H1 H2 need d r. cbn [app indent]. destruct (N.eqb_spec c 34); [contradiction|]. destruct (N.eqb_spec c 92); [contradiction|]. reflexivity. Qed.
Lemma copied_all l : Forall (fun c => c <> 34 /\ c <> 92) l -> copied l.
Proof. induction 1 as [|c l [H1 H2] H IH]; [apply copied_nil|]. apply (copied_app [c] l); [apply copied_one; assumption|exact IH]. Qed.
Lemma copied_esc c l : copied l -> copied (92 :: c :: l).
Proof. intros H need d r. cbn [app indent]. rewrite H. reflexivity. Qed.

Ltac fall := apply copied_all; cbn [lit app]; repeat (apply Forall_cons; [split; (assumption || discriminate || (vm_compute; discriminate))|]); apply Forall_nil.
(** What a piece of a string says. *)
Definition says (s : str) (l : list N) : Prop :=
  exists t, Forall scalar t /\ l = bytes_of t /\ jchars s t /\ Forall safe_char t /\ copied l.
Lemma jchars_app s t s' t' : jchars s t -> jchars s' t' -> jchars (s ++ s') (t ++ t').
Proof. induction 1; [auto|]. intros H'. cbn. rewrite <- app_assoc. constructor; auto. Qed.
Lemma says_nil : says [] [].
Proof. exists []. repeat split; try constructor. Qed.
Lemma says_app s l s' l' : says s l -> says s' l' -> says (s ++ s') (l ++ l').
Proof.
  intros (t & H1 & H2 & H3 & H4 & H5) (t' & H1' & H2' & H3' & H4' & H5'). exists (t ++ t').
  split; [apply Forall_app; auto|]. split; [rewrite bytes_of_app; congruence|]. split; [apply jchars_app; assumption|].
  split; [apply Forall_app; auto|apply copied_app; assumption].
Qed.
Lemma ascii_scalar c : c < 128 -> scalar c.
Proof. unfold scalar. lia. Qed.
Lemma bytes_ascii t : Forall (fun c => c < 128) t -> bytes_of t = t.
Proof.
  induction 1 as [|c t H _ IH]; [reflexivity|]. unfold bytes_of in *. cbn [map concat]. rewrite IH. unfold encode1.
  destruct (N.ltb_spec c 128); [reflexivity|lia].
Qed.
(** An escape: ASCII text that stands for the character. *)
Definition harmless (c : N) : bool := (c <? 128) && ((c =? 10) || (32 <=? c)) && negb ((c =? 60) || (c =? 62) || (c =? 38)).
Lemma harmless_ok l : forallb harmless l = true -> Forall scalar l /\ bytes_of l = l /\ Forall safe_char l.
Proof.
  intros H. assert (A : Forall (fun c => c < 128 /\ safe_char c) l).
  { apply Forall_forall. intros c Hc. rewrite forallb_forall in H. specialize (H c Hc). unfold harmless in H.
    apply andb_prop in H as [H H3]. apply andb_prop in H as [H1 H2]. apply N.ltb_lt in H1. split; [exact H1|]. split.
    - apply orb_prop in H2 as [H2|H2]; [apply N.eqb_eq in H2; auto|apply N.leb_le in H2; auto].
    - apply negb_true_iff in H3. apply orb_false_iff in H3 as [H3 H4]. apply orb_false_iff in H3 as [H3 H5]. apply N.eqb_neq in H3, H4, H5.
      cbn. intuition lia. }
  split; [|split].
  - eapply Forall_impl; [|exact A]. intros c [Hc _]. apply ascii_scalar; exact Hc.
  - apply bytes_ascii. eapply Forall_impl; [|exact A]. intros c [Hc _]; exact Hc.
  - eapply Forall_impl; [|exact A]. intros c [_ Hc]; exact Hc.
Qed.
Lemma says_ascii c l : forallb harmless l = true -> jchar c l -> copied l -> says [c] l.
Proof.
  intros H Hj Hc. apply harmless_ok in H as (H1 & H2 & H3). exists l. split; [exact H1|]. split; [congruence|]. split; [|split; assumption].
  rewrite <- (app_nil_r l). constructor; [exact Hj|constructor].
Qed.
Lemma hexval_hex d : d < 16 -> hexval (hex d) d.
Proof. intros H. unfold hexval, hex. destruct (N.ltb_spec d 10); lia. Qed.
Lemma says_u c : c < 128 -> c < 128 -> says [c] (lit "\u00" ++ [hex (c / 16); hex (c mod 16)]).
Proof.
  intros H _. assert (H1 : c / 16 < 16) by (apply N.div_lt_upper_bound; lia). assert (H2 : c mod 16 < 16) by (apply N.mod_lt; lia).
  assert (HH : forall d, d < 16 -> harmless (hex d) = true /\ hex d <> 34 /\ hex d <> 92).
  { intros d Hd. unfold hex, harmless. destruct (N.ltb_spec d 10);
      repeat match goal with |- context [?a <? ?b] => destruct (N.ltb_spec a b) | |- context [?a <=? ?b] => destruct (N.leb_spec a b)
                        | |- context [?a =? ?b] => destruct (N.eqb_spec a b) end; cbn [orb andb negb]; split; try reflexivity; lia. }
  destruct (HH _ H1) as (A1 & A2 & A3), (HH _ H2) as (B1 & B2 & B3).
  apply says_ascii.
  - cbn [lit app forallb]. rewrite A1, B1. reflexivity.
  - replace c with (0 * 4096 + 0 * 256 + (c / 16) * 16 + c mod 16) at 1
      by (rewrite (N.div_mod c 16) at 3 by lia; lia).
    apply jc_u; [|rewrite <- N.add_assoc; rewrite (N.mul_comm (c / 16)), <- N.div_mod by lia; apply ascii_scalar; lia].
    apply (unit16_ 48 48 (hex (c / 16)) (hex (c mod 16)) 0 0); try (apply hexval_hex; assumption); left; lia.
  - apply copied_esc. cbn [app]. fall.
Qed.
Lemma says_raw c : c < 128 -> 32 <= c -> c <> 34 -> c <> 92 -> safe_char c -> says [c] [c].
Proof.
  intros H1 H2 H3 H4 H5. exists [c]. split; [apply Forall_cons; [apply ascii_scalar; lia|apply Forall_nil]|]. split; [symmetry; apply bytes_ascii; apply Forall_cons; [lia|apply Forall_nil]|].
  split; [|split; [apply Forall_cons; [exact H5|apply Forall_nil]|apply copied_one; assumption]].
  change (jchars [c] ([c] ++ [])). constructor; [|constructor]. apply jc_raw; auto. apply ascii_scalar; lia.
Qed.
Lemma esc_ascii_says bf c : c < 128 -> says [c] (esc_ascii bf c).
Proof.
  intros H. unfold esc_ascii.
  destruct (N.eqb_spec c 34) as [->|N1]; [cbn [orb]; apply says_ascii; [reflexivity|constructor|apply copied_esc, copied_nil]|].
  destruct (N.eqb_spec c 92) as [->|N2]; [cbn [orb]; apply says_ascii; [reflexivity|constructor|apply copied_esc, copied_nil]|]. cbn [orb].
  destruct (N.eqb_spec c 8) as [->|N3]; [destruct bf; [apply says_ascii; [reflexivity|constructor|apply copied_esc, copied_nil]|apply says_u; lia]|].
  destruct (N.eqb_spec c 12) as [->|N4]; [destruct bf; [apply says_ascii; [reflexivity|constructor|apply copied_esc, copied_nil]|apply says_u; lia]|].
  destruct (N.eqb_spec c 10) as [->|N5]; [apply says_ascii; [reflexivity|constructor|apply copied_esc, copied_nil]|].
  destruct (N.eqb_spec c 13) as [->|N6]; [apply says_ascii; [reflexivity|constructor|apply copied_esc, copied_nil]|].
  destruct (N.eqb_spec c 9) as [->|N7]; [apply says_ascii; [reflexivity|constructor|apply copied_esc, copied_nil]|].
  destruct (N.ltb_spec c 32); [apply says_u; lia|]. destruct (N.eqb_spec c 60); [apply says_u; lia|]. destruct (N.eqb_spec c 62); [apply says_u; lia|].
  destruct (N.eqb_spec c 38); [apply says_u; lia|]. cbn [orb]. apply says_raw; auto. split; [auto|]. cbn. intuition lia.
Qed.

(** Reading bytes one character at a time. *)
Lemma runes_cons_some bs c r : decode1 bs = Some (c, r) -> runes bs = c :: runes r.
Proof.
  intros H. apply runes_iff. destruct (decode_sound _ _ _ H) as [Hc E]. rewrite E. apply rd_char; [exact Hc|apply runes_reads].
Qed.
Lemma runes_cons_none b r : decode1 (b :: r) = None -> runes (b :: r) = 65533 :: runes r.
Proof. intros H. apply runes_iff. apply rd_bad; [|apply runes_reads]. intros c t Hc. apply decode_none; assumption. Qed.

Lemma utf8_high r : scalar r -> 128 <= r -> Forall (fun b => 128 <= b) (utf8 r).
Proof.
  intros H H0. apply utf8_forms in H as [H|[(q & m & -> & Hm & Hq)|[(p & q & m & -> & Hm & Hq & Hp & Hl & Hs)|(o & p & q & m & -> & Hm & Hq & Hp & Hl)]]];
    [lia|rewrite utf8_2 by lia|rewrite utf8_3 by lia|rewrite utf8_4 by lia]; repeat constructor; lia.
Qed.
Lemma quoted_says bf fuel bs : (length bs <= fuel)%nat -> says (runes bs) (quoted bf fuel bs).
Proof.
  revert bs; induction fuel as [|f IH]; intros [|b r] HL; cbn [length] in HL; try lia; try (apply says_nil). cbn [quoted].
  destruct (N.ltb_spec b 128) as [Hb|Hb].
  - assert (D : decode1 (b :: r) = Some (b, r)) by (cbn [decode1]; destruct (N.ltb_spec b 128); [reflexivity|lia]).
    rewrite (runes_cons_some _ _ _ D). apply (says_app [b]); [apply esc_ascii_says; exact Hb|apply IH; lia].
  - destruct (decode1 (b :: r)) as [[c r']|] eqn:D.
    + rewrite (runes_cons_some _ _ _ D). pose proof (decode_shorter _ _ _ D) as HS. destruct (decode_sound _ _ _ D) as [Hc E].
      apply (says_app [c]); [|apply IH; cbn [length] in HS; lia].
      assert (Hc128 : 128 <= c).
      { destruct (N.leb_spec 128 c); [assumption|]. rewrite utf8_1 in E by assumption. injection E as E _. subst b. lia. }
      destruct (N.eqb_spec c 8232) as [->|N1]; [|destruct (N.eqb_spec c 8233) as [->|N2]]; cbn [orb].
      * apply says_ascii; [reflexivity| |apply copied_esc; fall].
        apply (jc_u (2 * 4096 + 0 * 256 + 2 * 16 + 8)); [|left; lia]. apply (unit16_ 50 48 50 56); left; lia.
      * apply says_ascii; [reflexivity| |apply copied_esc; fall].
        apply (jc_u (2 * 4096 + 0 * 256 + 2 * 16 + 9)); [|left; lia]. apply (unit16_ 50 48 50 57); left; lia.
      * assert (EF : firstn (length (b :: r) - length r') (b :: r) = utf8 c).
        { rewrite E, app_length, Nat.add_sub. rewrite firstn_app, Nat.sub_diag, firstn_all, firstn_O, app_nil_r. reflexivity. }
        rewrite EF. exists [c]. split; [constructor; [exact Hc|constructor]|]. split; [unfold bytes_of; cbn; rewrite app_nil_r; symmetry; apply encode_utf8; exact Hc|].
        split; [change (jchars [c] ([c] ++ [])); constructor; [apply jc_raw; [exact Hc|lia|lia|lia]|constructor]|]. split.
        { constructor; [|constructor]. split; [right; lia|]. cbn. intuition lia. }
        apply copied_all. eapply Forall_impl; [|apply utf8_high; assumption]. cbn. intros x Hx. lia.
    + rewrite (runes_cons_none _ _ D). apply (says_app [65533]); [|apply IH; lia].
      apply says_ascii; [reflexivity| |apply copied_esc; fall].
      apply (jc_u (15 * 4096 + 15 * 256 + 15 * 16 + 13)); [|right; lia].
      apply (unit16_ 102 102 102 100); right; right; lia.
Qed.

(** ** Texts *)
(** Bytes that are the UTF-8 of a harmless text. *)
Definition is_text (l t : list N) : Prop := Forall scalar t /\ l = bytes_of t /\ Forall safe_char t.
Lemma text_app l t l' t' : is_text l t -> is_text l' t' -> is_text (l ++ l') (t ++ t').
Proof.
  intros (H1 & H2 & H3) (H1' & H2' & H3'). repeat split; [apply Forall_app; auto|rewrite bytes_of_app; congruence|apply Forall_app; auto].
Qed.
Lemma text_harmless l : forallb harmless l = true -> is_text l l.
Proof. intros H. apply harmless_ok in H as (H1 & H2 & H3). repeat split; auto. Qed.
Lemma text_newline d : is_text (newline d) (newline d) /\ ws (newline d).
Proof.
  split; [apply text_harmless; unfold newline; cbn [app forallb]; induction d as [|d IH]; [reflexivity|exact IH]|].
  unfold ws, newline. cbn [app]. constructor; [cbn; auto|]. induction d as [|d IH]; [constructor|]. cbn. repeat (constructor; [cbn; auto|]). exact IH.
Qed.
Lemma quote_text bf bs : exists t, is_text (quote bf bs) t /\ jstring (runes bs) t.
Proof.
  destruct (quoted_says bf (length bs) bs (le_n _)) as (t & H1 & H2 & H3 & H4 & _). exists ([34] ++ t ++ [34]). split.
  - unfold quote. apply text_app; [apply text_harmless; reflexivity|]. apply text_app; [split; [|split]; assumption|apply text_harmless; reflexivity].
  - exists t. auto.
Qed.
(** ** Indent gives the pretty form *)
Definition nl_if (need : bool) (d : nat) : list N := if need then newline (S d) else [].
Definition deeper (need : bool) (d : nat) : nat := if need then S d else d.
Definition indents (src : list N) (out : nat -> list N) : Prop :=
  forall need d r, indent SOut need d (src ++ r) = nl_if need d ++ out (deeper need d) ++ indent SOut false (deeper need d) r.
Lemma indents_quote bf s : indents (quote bf s) (fun _ => quote bf s).
Proof.
  intros need d r. destruct (quoted_says bf (length s) s (le_n _)) as (t & _ & _ & _ & _ & HC). unfold quote. rewrite <- !app_assoc.
  destruct need; cbn [app indent nl_if deeper N.eqb Pos.eqb orb andb negb]; rewrite HC; reflexivity.
Qed.
Lemma indents_member bf k src out : indents src out ->
  indents (quote bf k ++ lit ":" ++ src) (fun d => quote bf k ++ lit ": " ++ out d).
Proof.
  intros H need d r. rewrite <- !app_assoc. rewrite indents_quote. f_equal. f_equal.
  change (lit ":" ++ src ++ r) with (58 :: src ++ r). cbn [indent N.eqb Pos.eqb orb andb negb app]. rewrite H. reflexivity.
Qed.
(** Items with their outputs, separated by commas, between brackets. *)
Lemma indents_items (l : list (list N * (nat -> list N))) x r :
  Forall (fun p => indents (fst p) (snd p)) (x :: l) -> forall need d,
  indent SOut need d (join (lit ",") (map fst (x :: l)) ++ r) =
  nl_if need d ++ join (lit "," ++ newline (deeper need d)) (map (fun p => snd p (deeper need d)) (x :: l)) ++ indent SOut false (deeper need d) r.
Proof.
  revert x; induction l as [|y l IH]; intros x H need d; apply Forall_cons_iff in H as [Hx H].
  - cbn [map join]. apply Hx.
  - cbn [map]. rewrite !join_cons. rewrite <- !app_assoc. rewrite Hx. f_equal. f_equal.
    match goal with |- indent _ _ _ (lit "," ++ ?x) = _ => change (lit "," ++ x) with (44 :: x) end.
    cbn [indent N.eqb Pos.eqb orb andb negb app]. change (lit ",") with [44]. cbn [app]. f_equal. f_equal.
    apply (IH y H false (deeper need d)).
Qed.
Lemma indents_block o c (l : list (list N * (nat -> list N))) : (o = 91 /\ c = 93) \/ (o = 123 /\ c = 125) ->
  Forall (fun p => indents (fst p) (snd p)) l ->
  indents ([o] ++ join (lit ",") (map fst l) ++ [c]) (fun d => block [o] [c] d (map (fun p => snd p (S d)) l)).
Proof.
  intros Hoc H need d r.
  assert (E : indent SOut need d (([o] ++ join (lit ",") (map fst l) ++ [c]) ++ r) =
              nl_if need d ++ [o] ++ indent SOut true (deeper need d) (join (lit ",") (map fst l) ++ [c] ++ r)).
  { rewrite <- !app_assoc. destruct Hoc as [[-> ->]|[-> ->]]; destruct need; reflexivity. }
  rewrite E. f_equal. destruct l as [|x l].
  - cbn [map join block app]. f_equal. destruct Hoc as [[-> ->]|[-> ->]]; reflexivity.
  - rewrite (indents_items l x _ H). cbn [block map]. cbn [nl_if deeper]. rewrite <- !app_assoc. do 4 f_equal.
    destruct Hoc as [[-> ->]|[-> ->]]; cbn [app indent N.eqb Pos.eqb orb andb negb Nat.sub]; rewrite Nat.sub_0_r; reflexivity.
Qed.
Lemma indents_word w : In w [lit "null"; lit "true"; lit "false"] -> indents w (fun _ => w).
Proof. intros [<-|[<-|[<-|[]]]] need d r; destruct need; reflexivity. Qed.
Theorem indents_value bf v : indents (marshal bf v) (fun d => pretty bf d v).
Proof.
  induction v as [s|b| | |v IH|l IH|fs IH] using gval_all.
  - apply indents_quote.
  - destruct b; apply indents_word; cbn; auto.
  - apply indents_word; cbn; auto.
  - apply indents_word; cbn; auto.
  - exact IH.
  - rewrite marshal_slice. pose proof (indents_block 91 93 (map (fun v => (marshal bf v, fun d => pretty bf d v)) l)) as H.
    rewrite map_map in H. cbn [fst] in H. intros need d r. rewrite H; [|left; auto|].
    + cbn [pretty]. rewrite map_map. reflexivity.
    + apply Forall_map. exact IH.
  - rewrite marshal_struct.
    pose proof (indents_block 123 125 (map (fun f => (quote bf (fst f) ++ lit ":" ++ marshal bf (snd f), fun d => quote bf (fst f) ++ lit ": " ++ pretty bf d (snd f))) (written fs))) as H.
    rewrite map_map in H. cbn [fst] in H. intros need d r. rewrite H; [|right; auto|].
    + rewrite pretty_struct. rewrite map_map. reflexivity.
    + apply Forall_map. cbn [fst snd]. apply Forall_forall. intros [n w] Hw. apply indents_member.
      unfold written in Hw. apply in_flat_map in Hw as ([[n' oe] w'] & Hi & Hw). rewrite Forall_forall in IH. specialize (IH _ Hi).
      destruct (oe && is_empty w'); [destruct Hw|]. destruct Hw as [Hw|[]]. injection Hw as <- <-. exact IH.
Qed.

(** ** The pretty form is a JSON text *)
(** The document of a Go value. *)
Fixpoint doc_of (v : gval) : json :=
  match v with
  | GStr s => JStr (runes s)
  | GBool b => JBool b
  | GNilSlice | GNilIface => JNull
  | GIface v => doc_of v
  | GSlice l => JArr (map doc_of l)
  | GStruct fs => JObj (flat_map (fun '(n, oe, v) => if oe && is_empty v then [] else [(runes n, doc_of v)]) fs)
  end.
Lemma doc_struct fs : doc_of (GStruct fs) = JObj (map (fun f => (runes (fst f), doc_of (snd f))) (written fs)).
Proof.
  cbn [doc_of]. f_equal. induction fs as [|[[n oe] v] fs IH]; [reflexivity|]. cbn [written flat_map]. destruct (oe && is_empty v); [exact IH|].
  cbn [app map fst snd]. fold (written fs). rewrite IH. reflexivity.
Qed.
Lemma written_in fs n v : In (n, v) (written fs) -> exists oe, In (n, oe, v) fs.
Proof.
  unfold written. intros Hw. apply in_flat_map in Hw as ([[n' oe] w'] & Hi & Hw).
  destruct (oe && is_empty w'); [destruct Hw|]. destruct Hw as [Hw|[]]. injection Hw as <- <-. eauto.
Qed.

Lemma ws_nil : ws []. Proof. constructor. Qed.
Lemma elements_text (nl nl0 : list N) (xs : list (list N * json)) :
  is_text nl nl /\ ws nl -> is_text nl0 nl0 /\ ws nl0 -> xs <> [] -> Forall (fun x => exists t, is_text (fst x) t /\ jvalue (snd x) t) xs ->
  exists t, is_text (nl ++ join (lit "," ++ nl) (map fst xs) ++ nl0) t /\ jelements (map snd xs) t.
Proof.
  intros [Hn Wn] [Hn0 Wn0] Hx H. destruct xs as [|x xs]; [destruct (Hx eq_refl)|clear Hx]. revert x H.
  induction xs as [|y xs IH]; intros x H; apply Forall_cons_iff in H as [(t & Ht & Jt) H].
  - exists (nl ++ t ++ nl0). cbn [map join]. split; [repeat apply text_app; assumption|]. apply je_one; assumption.
  - destruct (IH y H) as (u & Hu & Ju). exists (nl ++ t ++ [] ++ lit "," ++ u). cbn [map]. rewrite join_cons. rewrite <- !app_assoc. split.
    + apply text_app; [exact Hn|]. apply text_app; [exact Ht|]. cbn [app]. apply (text_app (lit ",") (lit ",")); [apply text_harmless; reflexivity|exact Hu].
    + apply je_more; auto using ws_nil.
Qed.
Lemma members_text (nl nl0 : list N) (xs : list (list N * str * list N * json)) :
  is_text nl nl /\ ws nl -> is_text nl0 nl0 /\ ws nl0 -> xs <> [] ->
  Forall (fun x => match x with (q, k, b, v) => (exists p, is_text q p /\ jstring k p) /\ (exists t, is_text b t /\ jvalue v t) end) xs ->
  exists t, is_text (nl ++ join (lit "," ++ nl) (map (fun x => match x with (q, _, b, _) => q ++ lit ": " ++ b end) xs) ++ nl0) t /\
    jmembers (map (fun x => match x with (_, k, _, v) => (k, v) end) xs) t.
Proof.
  intros [Hn Wn] [Hn0 Wn0] Hx H. destruct xs as [|x xs]; [destruct (Hx eq_refl)|clear Hx]. revert x H.
  assert (Wb : ws (lit " ")) by (constructor; [cbn; auto|constructor]).
  induction xs as [|y xs IH]; intros [[[q k] b] v] H; apply Forall_cons_iff in H as [[(p & Hp & Jp) (t & Ht & Jt)] H].
  - exists (nl ++ p ++ [] ++ lit ":" ++ lit " " ++ t ++ nl0). cbn [map join]. split.
    + rewrite <- !app_assoc. repeat (apply text_app; [assumption|]). apply (text_app (lit ": ") (lit ": ")); [apply text_harmless; reflexivity|]. apply text_app; assumption.
    + apply jm_one; auto using ws_nil.
  - destruct (IH y H) as (u & Hu & Ju). exists (nl ++ p ++ [] ++ lit ":" ++ lit " " ++ t ++ [] ++ lit "," ++ u). cbn [map]. rewrite join_cons. rewrite <- !app_assoc. split.
    + repeat (apply text_app; [assumption|]). apply (text_app (lit ": ") (lit ": ")); [apply text_harmless; reflexivity|]. apply text_app; [assumption|].
      apply (text_app (lit ",") (lit ",")); [apply text_harmless; reflexivity|exact Hu].
    + apply jm_more; auto using ws_nil.
Qed.
Theorem pretty_text bf v : forall d, exists t, is_text (pretty bf d v) t /\ jvalue (doc_of v) t.
Proof.
  induction v as [s|b| | |v IH|l IH|fs IH] using gval_all; intros d.
  - destruct (quote_text bf s) as (t & H & J). exists t. split; [exact H|apply jv_str; exact J].
  - destruct b; [exists (lit "true")|exists (lit "false")]; (split; [apply text_harmless; reflexivity|constructor]).
  - exists (lit "null"). split; [apply text_harmless; reflexivity|constructor].
  - exists (lit "null"). split; [apply text_harmless; reflexivity|constructor].
  - apply IH.
  - cbn [pretty doc_of]. destruct l as [|v l].
    { exists (lit "[" ++ [] ++ lit "]"). split; [apply text_harmless; reflexivity|apply jv_arr0, ws_nil]. }
    destruct (elements_text (newline (S d)) (newline d) (map (fun v => (pretty bf (S d) v, doc_of v)) (v :: l)) (text_newline _) (text_newline _)) as (t & Ht & Jt).
    + discriminate.
    + apply Forall_map. eapply Forall_impl; [|exact IH]. cbn. intros a Ha. apply Ha.
    + rewrite !map_map in Ht. rewrite map_map in Jt. cbn [fst snd] in *. exists (lit "[" ++ t ++ lit "]"). split; [|apply jv_arr; exact Jt].
      cbn [block map]. cbn [map] in Ht. apply text_app; [apply text_harmless; reflexivity|].
      rewrite 2 app_assoc. apply text_app; [rewrite <- app_assoc; exact Ht|apply text_harmless; reflexivity].
  - rewrite pretty_struct, doc_struct. assert (HW : Forall (fun f => forall d, exists t, is_text (pretty bf d (snd f)) t /\ jvalue (doc_of (snd f)) t) (written fs)).
    { apply Forall_forall. intros [n v] Hi. destruct (written_in _ _ _ Hi) as [oe Ho]. rewrite Forall_forall in IH. apply (IH _ Ho). }
    destruct (written fs) as [|f l].
    { exists (lit "{" ++ [] ++ lit "}"). split; [apply text_harmless; reflexivity|apply jv_obj0, ws_nil]. }
    destruct (members_text (newline (S d)) (newline d)
      (map (fun f => (quote bf (fst f), runes (fst f), pretty bf (S d) (snd f), doc_of (snd f))) (f :: l)) (text_newline _) (text_newline _)) as (t & Ht & Jt).
    + discriminate.
    + apply Forall_map. eapply Forall_impl; [|exact HW]. cbn beta. intros [n v] Ha. cbn [fst snd] in *. split; [apply quote_text|apply Ha].
    + rewrite !map_map in Ht. rewrite map_map in Jt. exists (lit "{" ++ t ++ lit "}"). split; [|apply jv_obj; exact Jt].
      cbn [block map]. cbn [map] in Ht. apply text_app; [apply text_harmless; reflexivity|].
      rewrite 2 app_assoc. apply text_app; [rewrite <- app_assoc; exact Ht|apply text_harmless; reflexivity].
Qed.
Theorem to_json_text bf n : exists t, is_text (to_json bf n) t /\ jvalue (doc_of (g_node n)) t.
Proof.
  destruct (pretty_text bf (g_node n) 0) as (t & Ht & Jt). exists t. split; [|exact Jt].
  unfold to_json. rewrite <- (app_nil_r (marshal bf (g_node n))). rewrite indents_value. cbn [nl_if deeper app indent]. rewrite app_nil_r. exact Ht.
Qed.

(** ** The document is the one of the node *)
Lemma runes_lit (n : string) : forallb harmless (lit n) = true -> runes (lit n) = lit n.
Proof. intros H. apply harmless_ok in H as (H1 & H2 & _). rewrite <- H2 at 1. apply runes_bytes_of; exact H1. Qed.
Lemma is_empty_slice {A} (f : A -> gval) s : is_empty (gslice f s) = match s with None | Some [] => true | _ => false end.
Proof. destruct s as [[|a l]|]; reflexivity. Qed.
Lemma runes_nil bs : runes bs = [] -> bs = [].
Proof.
  intros H. apply runes_iff in H. inversion H; reflexivity.
Qed.
Definition member_of (f : str * bool * gval) : list (str * json) :=
  match f with (n, oe, v) => if oe && is_empty v then [] else [(runes n, doc_of v)] end.
Lemma doc_fields fs : doc_of (GStruct fs) = JObj (flat_map member_of fs).
Proof. reflexivity. Qed.
Lemma member_text n s : forallb harmless (lit n) = true -> member_of (field n (GStr s)) = text_member n (runes s).
Proof. intros H. unfold member_of, field. cbn [andb doc_of]. rewrite (runes_lit n H). reflexivity. Qed.
Lemma member_text_oe n s : forallb harmless (lit n) = true ->
  member_of (field_oe n (GStr s)) = match runes s with [] => [] | t => text_member n t end.
Proof.
  intros H. unfold member_of, field_oe. cbn [andb]. destruct s as [|b s]; [reflexivity|]. cbn [is_empty doc_of]. rewrite (runes_lit n H).
  destruct (runes (b :: s)) eqn:E; [apply runes_nil in E; discriminate|]. reflexivity.
Qed.
Lemma member_always {A B} n (f : A -> gval) (d : B -> json) m s : forallb harmless (lit n) = true -> (forall a, doc_of (f a) = d (m a)) ->
  member_of (field n (gslice f s)) = always n d (smap m s).
Proof.
  intros H E. unfold member_of, field, always. cbn [andb]. rewrite (runes_lit n H). do 2 f_equal. destruct s as [l|]; [|reflexivity].
  cbn [gslice doc_of smap option_map]. rewrite !map_map. f_equal. apply map_ext. exact E.
Qed.
Lemma member_optional {A B} n (f : A -> gval) (d : B -> json) m s : forallb harmless (lit n) = true -> (forall a, doc_of (f a) = d (m a)) ->
  member_of (field_oe n (gslice f s)) = optional n d (smap m s).
Proof.
  intros H E. unfold member_of, field_oe, optional. rewrite is_empty_slice. cbn [andb]. destruct s as [[|a l]|]; try reflexivity.
  cbn [gslice doc_of smap option_map map]. rewrite (runes_lit n H), E, !map_map. do 4 f_equal. apply map_ext. exact E.
Qed.
Lemma doc_str a : doc_of (GStr a) = JStr (runes a).
Proof. reflexivity. Qed.
Lemma doc_attribute_of a : doc_of (g_attribute a) = doc_attribute (map_attribute runes a).
Proof. destruct a as [ty [v|]]; reflexivity. Qed.
Lemma doc_column_of c : doc_of (g_column c) = doc_column (map_column runes c).
Proof.
  pose proof doc_attribute_of. unfold g_column, doc_column. rewrite doc_fields. cbn [flat_map]. rewrite !member_text, (member_optional _ _ doc_attribute (map_attribute runes)) by (reflexivity || assumption). rewrite ?app_nil_r. reflexivity.
Qed.
Lemma doc_index_of i : doc_of (g_index i) = doc_index (map_index runes i).
Proof.
  pose proof doc_str. unfold g_index, doc_index. rewrite doc_fields. cbn [flat_map]. rewrite member_text, (member_always _ _ JStr runes), member_text_oe by (reflexivity || assumption). rewrite ?app_nil_r. reflexivity.
Qed.
Lemma doc_fkaction_of a : doc_of (g_fkaction a) = doc_fkaction (map_fkaction runes a).
Proof.
  unfold g_fkaction, doc_fkaction. rewrite doc_fields. cbn [flat_map]. rewrite !member_text by (reflexivity || assumption). rewrite ?app_nil_r. reflexivity.
Qed.
Lemma doc_fkey_of k : doc_of (g_fkey k) = doc_fkey (map_fkey runes k).
Proof. 
  pose proof doc_str. pose proof doc_fkaction_of. unfold g_fkey, doc_fkey. rewrite doc_fields. cbn [flat_map].
  rewrite !(member_always _ _ JStr runes), member_text, (member_always _ _ doc_fkaction (map_fkaction runes)) by (reflexivity || assumption).
  rewrite ?app_nil_r. reflexivity.
Qed.
Lemma doc_config_of c : doc_of (g_config c) = doc_config (map_config runes c).
Proof.
  unfold g_config, doc_config. rewrite doc_fields. cbn [flat_map]. rewrite !member_text by (reflexivity || assumption). rewrite ?app_nil_r. reflexivity.
Qed.
Lemma doc_extension_of e : doc_of (g_extension e) = doc_extension (map_extension runes e).
Proof.
  pose proof doc_config_of. unfold g_extension, doc_extension. rewrite doc_fields. cbn [flat_map]. rewrite !member_text, (member_always _ _ doc_config (map_config runes)) by (reflexivity || assumption). rewrite ?app_nil_r. reflexivity.
Qed.
Lemma doc_table_of t : doc_of (g_table t) = doc_table (map_table runes t).
Proof.
  pose proof doc_column_of. pose proof doc_index_of. pose proof doc_fkey_of. unfold g_table, doc_table. rewrite doc_fields. cbn [flat_map].
  rewrite member_text, (member_optional _ _ doc_column (map_column runes)), (member_optional _ _ doc_index (map_index runes)),
    (member_optional _ _ doc_fkey (map_fkey runes)) by (reflexivity || assumption). rewrite ?app_nil_r. reflexivity.
Qed.
Lemma doc_action_of a : doc_of (g_action a) = doc_action (map_action runes a).
Proof.
  pose proof doc_str. unfold g_action, doc_action. rewrite doc_fields. cbn [flat_map].
  rewrite !member_text, !(member_optional _ _ JStr runes), !(member_always _ _ JStr runes) by (reflexivity || assumption). rewrite ?app_nil_r. reflexivity.
Qed.
Lemma doc_schema_of s : doc_of (g_schema s) = doc_schema (map_schema runes s).
Proof.
  pose proof doc_table_of. pose proof doc_action_of. pose proof doc_extension_of. unfold g_schema, doc_schema. rewrite doc_fields. cbn [flat_map].
  rewrite !member_text, (member_optional _ _ doc_table (map_table runes)), (member_optional _ _ doc_action (map_action runes)),
    (member_optional _ _ doc_extension (map_extension runes)) by (reflexivity || assumption). rewrite ?app_nil_r. reflexivity.
Qed.
Theorem document_of n : doc_of (g_node n) = document (map_node runes n).
Proof.
  destruct n; cbn [g_node map_node document];
    [apply doc_schema_of|apply doc_extension_of|apply doc_table_of|apply doc_column_of|apply doc_attribute_of|apply doc_index_of|apply doc_fkey_of|apply doc_action_of].
Qed.

(** ** The main facts *)
Theorem to_json_reads bf n : valid_utf8 (to_json bf n) /\ json_text (document (map_node runes n)) (runes (to_json bf n)) /\
  Forall safe_char (runes (to_json bf n)).
Proof.
  destruct (to_json_text bf n) as (t & (H1 & H2 & H3) & J). rewrite document_of in J. rewrite H2. split; [apply bytes_of_valid|].
  rewrite runes_bytes_of by exact H1. split; [|exact H3]. exists [], t, []. rewrite app_nil_r. split; [reflexivity|]. split; [apply ws_nil|]. split; [exact J|apply ws_nil].
Qed.

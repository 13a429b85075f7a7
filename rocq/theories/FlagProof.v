(** The flag parser reads what the command line says. *)
From Verif Require Import Str Flags FlagSpec.
Local Open Scope N_scope.

Definition apply1 (v : vars) (s : setting) : vars :=
  match s with
  | SetTrace b => Vars (v_version v) (v_trace v) (v_output v) b (v_flag_help v)
  | SetVersion b => Vars b (v_trace v) (v_output v) (v_flag_trace v) (v_flag_help v)
  | SetHelp b => Vars (v_version v) (v_trace v) (v_output v) (v_flag_trace v) b
  | SetOutput d => Vars (v_version v) (v_trace v) d (v_flag_trace v) (v_flag_help v)
  end.
Definition apply (v : vars) (ss : list setting) : vars := fold_left apply1 ss v.

Lemma parse_bool_iff s b : parse_bool s = Some b <-> truth s b.
Proof.
  unfold parse_bool. destruct (mem_str s [lit "1"; lit "t"; lit "T"; lit "TRUE"; lit "true"; lit "True"]) eqn:E1.
  - apply mem_str_In in E1. split; [intros H; injection H as <-; constructor; exact E1|]. intros H. inversion H as [|? H']; subst; [reflexivity|exfalso].
    cbn in E1, H'. intuition congruence.
  - apply mem_str_nIn in E1. destruct (mem_str s [lit "0"; lit "f"; lit "F"; lit "FALSE"; lit "false"; lit "False"]) eqn:E2.
    + apply mem_str_In in E2. split; [intros H; injection H as <-; constructor; exact E2|]. intros H. inversion H; subst; [contradiction|reflexivity].
    + apply mem_str_nIn in E2. split; [discriminate|]. intros H. inversion H; subst; contradiction.
Qed.
Definition kind (f : flag) : option (bool -> setting) :=
  match f with FTrace => Some SetTrace | FVersion => Some SetVersion | FHelp => Some SetHelp | FOutput => None end.
Lemma set_switch f k s v : kind f = Some k -> set_flag f s v = option_map (fun b => apply1 v (k b)) (parse_bool s).
Proof. destruct f; cbn; intros H; try discriminate; injection H as <-; destruct (parse_bool s); reflexivity. Qed.
Lemma set_output s v : set_flag FOutput s v = Some (apply1 v (SetOutput s)). Proof. reflexivity. Qed.
Lemma set_true f k v : kind f = Some k -> set_flag f (lit "true") v = Some (apply1 v (k true)).
Proof. intros H. rewrite (set_switch _ _ _ _ H). reflexivity. Qed.

Lemma kind_inj f f' k : kind f = Some k -> kind f' = Some k -> f = f'.
Proof.
  intros H H'. assert (E : option_map (fun g => g true) (kind f) = option_map (fun g : bool -> setting => g true) (kind f')) by congruence.
  destruct f, f'; try reflexivity; try discriminate.
Qed.
Lemma switch_flag n c k : switch n c k -> exists f, kind f = Some k /\ long_flag n = Some f /\ short_flag c = Some f.
Proof. intros []; [exists FTrace|exists FVersion|exists FHelp]; repeat split. Qed.
Lemma switch_inj n n' c k k' : switch n c k -> switch n' c k' -> k = k'.
Proof.
  intros H H'. apply switch_flag in H as (f & Hk & _ & Hs), H' as (f' & Hk' & _ & Hs'). congruence.
Qed.
Lemma long_flag_iff n f k : kind f = Some k -> (long_flag n = Some f <-> exists c, switch n c k /\ short_flag c = Some f).
Proof.
  intros Hk. unfold long_flag. split.
  - destruct (str_eqb n (lit "trace")) eqn:Etrace; [apply str_eqb_eq in Etrace; subst n; intros H; injection H as <-; first [discriminate Hk|injection Hk as <-; eexists; split; [constructor|reflexivity]]|].
    destruct (str_eqb n (lit "version")) eqn:Eversion; [apply str_eqb_eq in Eversion; subst n; intros H; injection H as <-; first [discriminate Hk|injection Hk as <-; eexists; split; [constructor|reflexivity]]|].
    destruct (str_eqb n (lit "output")) eqn:Eoutput; [apply str_eqb_eq in Eoutput; subst n; intros H; injection H as <-; first [discriminate Hk|injection Hk as <-; eexists; split; [constructor|reflexivity]]|].
    destruct (str_eqb n (lit "help")) eqn:Ehelp; [apply str_eqb_eq in Ehelp; subst n; intros H; injection H as <-; first [discriminate Hk|injection Hk as <-; eexists; split; [constructor|reflexivity]]|].
    discriminate.
  - intros (c & Hs & _). apply switch_flag in Hs as (f' & Hk' & Hl & _). change (long_flag n = Some f). rewrite Hl. f_equal. eapply kind_inj; eassumption.
Qed.
Lemma long_output n : long_flag n = Some FOutput <-> n = lit "output".
Proof.
  unfold long_flag. split; [|intros ->; reflexivity].
  destruct (str_eqb n (lit "trace")) eqn:Etrace; [apply str_eqb_eq in Etrace; subst n; intros H; try discriminate H; reflexivity|].
  destruct (str_eqb n (lit "version")) eqn:Eversion; [apply str_eqb_eq in Eversion; subst n; intros H; try discriminate H; reflexivity|].
  destruct (str_eqb n (lit "output")) eqn:Eoutput; [apply str_eqb_eq in Eoutput; subst n; intros H; try discriminate H; reflexivity|].
  destruct (str_eqb n (lit "help")) eqn:Ehelp; [apply str_eqb_eq in Ehelp; subst n; intros H; try discriminate H; reflexivity|].
  discriminate.
Qed.
Lemma short_flag_iff c f k : kind f = Some k -> (short_flag c = Some f <-> exists n, switch n c k).
Proof.
  intros Hk. unfold short_flag. split.
  - repeat (match goal with |- context [c =? ?x] => destruct (N.eqb_spec c x) as [->|] end; [intros H; injection H as <-; first [discriminate Hk|injection Hk as <-; eexists; constructor]|]). discriminate.
  - intros (n & Hs). apply switch_flag in Hs as (f' & Hk' & _ & Hl). change (short_flag c = Some f). rewrite Hl. f_equal. eapply kind_inj; eassumption.
Qed.
Lemma short_output c : short_flag c = Some FOutput <-> c = 111.
Proof.
  unfold short_flag. split; [|intros ->; reflexivity].
  repeat (match goal with |- context [c =? ?x] => destruct (N.eqb_spec c x) as [->|] end; [intros H; try discriminate; reflexivity|]). discriminate.
Qed.
Lemma kind_bool f : is_bool f = match kind f with Some _ => true | None => false end. Proof. destruct f; reflexivity. Qed.
Lemma kind_none f : kind f = None -> f = FOutput. Proof. destruct f; cbn; congruence. Qed.

Lemma valued_dec r : valued r \/ ~ valued r.
Proof.
  destruct r as [|a [|x v]]; [right; intros (y & u & E); discriminate|right; intros (y & u & E); discriminate|].
  destruct (N.eq_dec a 61) as [->|H]; [left; exists x, v; reflexivity|right; intros (y & u & E); injection E as E _; congruence].
Qed.
Lemma not_valued_match {A} (r : list N) (g : N -> list N -> A) (d : A) : ~ valued r -> match r with 61 :: x :: r' => g x r' | _ => d end = d.
Proof.
  intros H. destruct r as [|a r]; [reflexivity|]. destruct (N.eq_dec a 61) as [->|Ha].
  - destruct r as [|x r]; [reflexivity|]. exfalso. apply H. exists x, r. reflexivity.
  - destruct a as [|a]; [reflexivity|]. do 6 (destruct a as [a|a|]; try reflexivity; try (exfalso; apply Ha; reflexivity)).
Qed.
Lemma test_iff s : str_eqb (firstn 5 s) (lit "test.") = true <-> test_flag s.
Proof.
  rewrite str_eqb_eq. split.
  - intros E. exists (skipn 5 s). rewrite <- E. symmetry. apply firstn_skipn.
  - intros (u & ->). reflexivity.
Qed.
Definition short_body fuel c r args v :=
  match short_flag c with
  | None => None
  | Some f =>
    match r with
    | 61 :: x :: r' => option_map (fun v' => (v', args)) (set_flag f (x :: r') v)
    | _ => if is_bool f then match set_flag f (lit "true") v with Some v' => short_args fuel r args v' | None => None end
           else match r with
                | _ :: _ => option_map (fun v' => (v', args)) (set_flag f r v)
                | [] => match args with [] => None | x :: args' => option_map (fun v' => (v', args')) (set_flag f x v) end
                end
    end
  end.
Lemma short_args_eq fuel c r args v : short_args (S fuel) (c :: r) args v =
  if str_eqb (firstn 5 (c :: r)) (lit "test.") then Some (v, args) else short_body fuel c r args v.
Proof. reflexivity. Qed.
Lemma truth_ne v b : truth v b -> exists x u, v = x :: u.
Proof. intros H. inversion H as [s Hi|s Hi]; subst; cbn in Hi; repeat (destruct Hi as [<-|Hi]; [eexists _, _; reflexivity|]); destruct Hi. Qed.
Lemma letters_iff fuel : forall s args v v' left, (length s <= fuel)%nat ->
  (short_args fuel s args v = Some (v', left) <-> exists ss, letters s args ss left /\ v' = apply v ss).
Proof.
  induction fuel as [|fuel IH]; intros s args v v' left HL.
  - destruct s; [|cbn in HL; lia]. cbn. split.
    + intros H. injection H as <- <-. exists []. split; [constructor|reflexivity].
    + intros (ss & H & ->). inversion H as [|s l (u & E)| | | | |]; subst; [reflexivity|discriminate].
  - destruct s as [|c r].
    + cbn. split.
      * intros H. injection H as <- <-. exists []. split; [constructor|reflexivity].
      * intros (ss & H & ->). inversion H as [|s l (u & E)| | | | |]; subst; [reflexivity|discriminate].
    + rewrite short_args_eq. cbn [length] in HL. destruct (str_eqb (firstn 5 (c :: r)) (lit "test.")) eqn:ET.
      * apply test_iff in ET. split.
        -- intros H. injection H as <- <-. exists []. split; [apply le_test; exact ET|reflexivity].
        -- intros (ss & H & ->). destruct ET as (u & Eu). injection Eu as -> ->. inversion H; subst; try reflexivity; try congruence.
           exfalso. match goal with H : ~ test_flag _ |- _ => apply H end. exists u. reflexivity.
      * assert (NT : ~ test_flag (c :: r)) by (intros HT; apply test_iff in HT; congruence).
        unfold short_body. destruct (short_flag c) as [f|] eqn:EF.
        -- destruct (valued_dec r) as [(x & u & ->)|NV].
           ++ cbn [lit app]. change (N_of_ascii "="%char) with 61. cbv iota. destruct (kind f) as [k|] eqn:EK.
              ** rewrite (set_switch _ _ _ _ EK). pose proof (proj1 (short_flag_iff c f k EK) EF) as (n & Hsw). split.
                 --- destruct (parse_bool (x :: u)) as [b|] eqn:EB; [|discriminate]. cbn. intros H. injection H as <- <-. apply parse_bool_iff in EB.
                     exists [k b]. split; [|reflexivity]. apply (le_value n c k (x :: u) b args); assumption.
                 --- intros (ss & H & ->). inversion H as [|s l HT|n' c' f' r' l ss' l' Hs' HT HV HR|n' c' f' v0 b l Hs' Hb|x0 v0 l|v0 l Hv HV|d l]; subst.
                     +++ contradiction.
                     +++ exfalso. apply HV. exists x, u. reflexivity.
                     +++ apply parse_bool_iff in Hb. assert (EQ : f' = k) by (eapply switch_inj; eassumption). subst f'. rewrite Hb. reflexivity.
                     +++ destruct (proj1 (short_output 111) eq_refl). cbn in EF. injection EF as <-. discriminate.
                     +++ exfalso. apply HV. exists x, u. reflexivity.
              ** apply kind_none in EK. subst f. apply short_output in EF. subst c. rewrite set_output. cbn [option_map]. split.
                 --- intros H. injection H as <- <-. exists [SetOutput (x :: u)]. split; [apply (le_output_eq x u args)|reflexivity].
                 --- intros (ss & H & ->). inversion H as [|s l HT|n' c' f' r' l ss' l' Hs' HT HV HR|n' c' f' v0 b l Hs' Hb|x0 v0 l|v0 l Hv HV|d l]; subst.
                     +++ contradiction.
                     +++ inversion Hs'.
                     +++ inversion Hs'.
                     +++ reflexivity.
                     +++ exfalso. apply HV. exists x, u. reflexivity.
           ++ rewrite (not_valued_match r _ _ NV). rewrite kind_bool. destruct (kind f) as [k|] eqn:EK.
              ** rewrite (set_true _ _ _ EK). pose proof (proj1 (short_flag_iff c f k EK) EF) as (n & Hsw). rewrite (IH r args _ _ _ ltac:(lia)). split.
                 --- intros (ss & H & ->). exists (k true :: ss). split; [apply (le_on n c k); assumption|reflexivity].
                 --- intros (ss & H & ->). inversion H as [|s l HT|n' c' f' r' l ss' l' Hs' HT HV HR|n' c' f' v0 b l Hs' Hb|x0 v0 l|v0 l Hv HV|d l]; subst.
                     +++ contradiction.
                     +++ assert (EQ : f' = k) by (eapply switch_inj; eassumption). subst f'. exists ss'. split; [exact HR|reflexivity].
                     +++ exfalso. destruct (truth_ne _ _ Hb) as (x & u & ->). apply NV. exists x, u. reflexivity.
                     +++ exfalso. inversion Hsw.
                     +++ exfalso. inversion Hsw.
                     +++ exfalso. inversion Hsw.
              ** apply kind_none in EK. subst f. apply short_output in EF. subst c. split.
                 --- destruct r as [|y r].
                     +++ destruct args as [|d args]; [discriminate|]. cbn. intros H. injection H as <- <-. exists [SetOutput d]. split; [apply (le_output_next d args)|reflexivity].
                     +++ cbn. intros H. injection H as <- <-. exists [SetOutput (y :: r)]. split; [apply (le_output (y :: r)); [discriminate|exact NV]|reflexivity].
                 --- intros (ss & H & ->). inversion H as [|s l HT|n' c' f' r' l ss' l' Hs' HT HV HR|n' c' f' v0 b l Hs' Hb|x0 v0 l|v0 l Hv HV|d l]; subst.
                     +++ contradiction.
                     +++ inversion Hs'.
                     +++ inversion Hs'.
                     +++ exfalso. apply NV. exists x0, v0. reflexivity.
                     +++ destruct r as [|y r]; [congruence|reflexivity].
                     +++ reflexivity.
        -- split; [discriminate|]. intros (ss & H & _). exfalso. inversion H as [|s l HT|n' c' f' r' l ss' l' Hs' HT HV HR|n' c' f' v0 b l Hs' Hb|x0 v0 l|v0 l Hv HV|d l]; subst; try contradiction; try discriminate; destruct Hs'; discriminate.
Qed.

(** The long form. *)
Lemma split_eq_none s a : split_eq s = (a, None) <-> a = s /\ ~ In 61 s.
Proof.
  revert a; induction s as [|c r IH]; intros a; cbn.
  - split; [intros H; injection H as <-; auto|intros [-> _]; reflexivity].
  - destruct (N.eqb_spec c 61) as [->|Hc]; [split; [discriminate|intros [_ H]; exfalso; apply H; auto]|]. destruct (split_eq r) as [p q] eqn:E. split.
    + intros H. injection H as <- ->. destruct (proj1 (IH p) eq_refl) as [-> Hn]. split; [reflexivity|intros [H|H]; auto].
    + intros [-> Hn]. assert (X : (p, q) = (r, None)) by (apply IH; split; [reflexivity|intros H; apply Hn; auto]). injection X as -> ->. reflexivity.
Qed.
Lemma split_eq_some s a b : split_eq s = (a, Some b) <-> s = a ++ lit "=" ++ b /\ ~ In 61 a.
Proof.
  revert a b; induction s as [|c r IH]; intros a b; cbn.
  - split; [discriminate|]. intros [E _]. destruct a; discriminate.
  - destruct (N.eqb_spec c 61) as [->|Hc].
    + split; [intros H; injection H as <- <-; split; [reflexivity|intros []]|]. intros [E Hn]. destruct a as [|x a]; [injection E as ->; reflexivity|].
      injection E as <- _. exfalso. apply Hn. left; reflexivity.
    + destruct (split_eq r) as [p q] eqn:E. split.
      * intros H. injection H as <- ->. destruct (proj1 (IH p b) eq_refl) as [-> Hn]. split; [reflexivity|intros [H|H]; auto].
      * intros [E' Hn]. destruct a as [|x a]; [injection E' as -> _; exfalso; apply Hc; reflexivity|]. injection E' as <- E'.
        assert (X : (p, q) = (a, Some b)) by (apply IH; split; [exact E'|intros H; apply Hn; right; exact H]). injection X as -> ->. reflexivity.
Qed.
(** One long argument: what it may say. *)
Inductive long_says : list N -> list (list N) -> setting -> list (list N) -> Prop :=
| ls_on n c f l : switch n c f -> long_says n l (f true) l
| ls_value n c f v b l : switch n c f -> truth v b -> long_says (n ++ lit "=" ++ v) l (f b) l
| ls_output_eq d l : long_says (lit "output=" ++ d) l (SetOutput d) l
| ls_output d l : long_says (lit "output") (d :: l) (SetOutput d) l.
Lemma switch_name n c k : switch n c k -> ~ In 61 n.
Proof. intros H Hi. destruct H; cbn in Hi; repeat (destruct Hi as [Hi|Hi]; [discriminate|]); exact Hi. Qed.
Definition long_body n val args v : option (vars * list (list N)) :=
  match long_flag n with
  | None => None
  | Some f =>
    match val with
    | Some x => option_map (fun v' => (v', args)) (set_flag f x v)
    | None => if is_bool f then option_map (fun v' => (v', args)) (set_flag f (lit "true") v)
              else match args with [] => None | x :: args' => option_map (fun v' => (v', args')) (set_flag f x v) end
    end
  end.
Lemma long_arg_eq name args v : long_arg name args v = let (n, val) := split_eq name in long_body n val args v.
Proof.
  unfold long_arg, long_body. destruct name as [|c r]; [reflexivity|]. destruct (N.eqb_spec c 45) as [->|H45]; cbn [orb].
  - cbn [split_eq]. change (45 =? 61) with false. cbv iota. destruct (split_eq r) as [a b]. reflexivity.
  - destruct (N.eqb_spec c 61) as [->|H61]; [reflexivity|]. reflexivity.
Qed.
Lemma long_arg_iff name args v v' left : long_arg name args v = Some (v', left) <-> exists s, long_says name args s left /\ v' = apply1 v s.
Proof.
  rewrite long_arg_eq. destruct (split_eq name) as [n val] eqn:ES. split.
  - unfold long_body. destruct (long_flag n) as [f|] eqn:EF; [|discriminate]. destruct val as [x|].
    + apply split_eq_some in ES as [-> Hn]. destruct (kind f) as [k|] eqn:EK.
      * rewrite (set_switch _ _ _ _ EK). destruct (parse_bool x) as [b|] eqn:EB; [|discriminate]. cbn. intros H. injection H as <- <-.
        destruct (proj1 (long_flag_iff n f k EK) EF) as (c & Hs & _). apply parse_bool_iff in EB. exists (k b). split; [apply (ls_value n c); assumption|reflexivity].
      * apply kind_none in EK. subst f. apply long_output in EF. subst n. cbn. intros H. injection H as <- <-. exists (SetOutput x). split; [apply (ls_output_eq x)|reflexivity].
    + apply split_eq_none in ES as [-> Hn]. rewrite kind_bool. destruct (kind f) as [k|] eqn:EK.
      * rewrite (set_true _ _ _ EK). cbn. intros H. injection H as <- <-. destruct (proj1 (long_flag_iff name f k EK) EF) as (c & Hs & _). exists (k true). split; [apply (ls_on name c); assumption|reflexivity].
      * apply kind_none in EK. subst f. apply long_output in EF. subst name. destruct args as [|d args]; [discriminate|]. cbn. intros H. injection H as <- <-.
        exists (SetOutput d). split; [apply ls_output|reflexivity].
  - intros (s & H & ->). unfold long_body. inversion H as [n0 c k l Hs|n0 c k x b l Hs Hb|d l|d l]; subst.
    + assert (X : split_eq name = (name, None)) by (apply split_eq_none; split; [reflexivity|eapply switch_name; exact Hs]). rewrite X in ES. injection ES as <- <-.
      destruct (switch_flag _ _ _ Hs) as (f & EK & -> & _). rewrite kind_bool, EK, (set_true _ _ _ EK). reflexivity.
    + assert (X : split_eq (n0 ++ lit "=" ++ x) = (n0, Some x)) by (apply split_eq_some; split; [reflexivity|eapply switch_name; exact Hs]). rewrite X in ES. injection ES as <- <-.
      destruct (switch_flag _ _ _ Hs) as (f & EK & -> & _). apply parse_bool_iff in Hb. rewrite (set_switch _ _ _ _ EK), Hb. reflexivity.
    + assert (X : split_eq (lit "output=" ++ d) = (lit "output", Some d)) by reflexivity. rewrite X in ES. injection ES as <- <-. reflexivity.
    + assert (X : split_eq (lit "output") = (lit "output", None)) by reflexivity. rewrite X in ES. injection ES as <- <-. reflexivity.
Qed.
Lemma letters_shorter s l ss l' : letters s l ss l' -> (length l' <= length l)%nat.
Proof. induction 1; cbn; lia. Qed.
Lemma long_shorter s l ss l' : long_says s l ss l' -> (length l' <= length l)%nat.
Proof. intros []; cbn; lia. Qed.

(** Kinds of arguments. *)
Inductive arg_kind : list N -> Type :=
| ak_plain a : not_a_flag a -> arg_kind a
| ak_stop : arg_kind (lit "--")
| ak_long c r : arg_kind (lit "--" ++ c :: r)
| ak_short c r : c <> 45 -> arg_kind (lit "-" ++ c :: r).
Lemma arg_kind_of a : arg_kind a.
Proof.
  destruct a as [|x a]; [apply ak_plain; right; discriminate|]. destruct (N.eq_dec x 45) as [->|Hx].
  - destruct a as [|y a]; [apply ak_plain; left; reflexivity|]. destruct (N.eq_dec y 45) as [->|Hy].
    + destruct a as [|z a]; [apply ak_stop|apply (ak_long z a)].
    + apply (ak_short y a Hy).
  - apply ak_plain. right. intros r E. injection E as E _. congruence.
Qed.
Lemma not45 {A} x (p q : A) (g : N -> A) : x <> 45 -> match x with 45 => p | _ => q end = q.
Proof.
  intros H. destruct x as [|x]; [reflexivity|]. do 6 (destruct x as [x|x|]; try reflexivity; try (exfalso; apply H; reflexivity)).
Qed.
Lemma parse_plain fuel a args v : not_a_flag a -> parse_args (S fuel) (a :: args) v =
  match parse_args fuel args v with Some (v', rest) => Some (v', a :: rest) | None => None end.
Proof.
  intros [->|H]; [reflexivity|]. destruct a as [|x a]; [reflexivity|]. assert (Hx : x <> 45) by (intros ->; apply (H a); reflexivity).
  cbn [parse_args]. destruct x as [|x]; [reflexivity|]. do 6 (destruct x as [x|x|]; try reflexivity; try (exfalso; apply Hx; reflexivity)).
Qed.
Lemma parse_long fuel c r args v : parse_args (S fuel) ((lit "--" ++ c :: r) :: args) v =
  match long_arg (c :: r) args v with Some (v', args') => parse_args fuel args' v' | None => None end.
Proof. reflexivity. Qed.
Lemma parse_short fuel c r args v : c <> 45 -> parse_args (S fuel) ((lit "-" ++ c :: r) :: args) v =
  match short_args (S (S (length r))) (c :: r) args v with Some (v', args') => parse_args fuel args' v' | None => None end.
Proof.
  intros H. cbn [parse_args lit app length]. change (N_of_ascii "-") with 45. cbv iota.
  destruct c as [|c]; [reflexivity|]. do 6 (destruct c as [c|c|]; try reflexivity; try (exfalso; apply H; reflexivity)).
Qed.
Lemma says_long c r l s l' ss rest : long_says (c :: r) l s l' -> says l' ss rest -> says ((lit "--" ++ c :: r) :: l) (s :: ss) rest.
Proof.
  intros H HS. remember (c :: r) as name eqn:E. destruct H as [n c' f l Hs|n c' f v b l Hs Hb|d l|d l].
  - eapply sy_on; eassumption.
  - eapply sy_value; eassumption.
  - exact (sy_output_eq d l ss rest HS).
  - exact (sy_output d l ss rest HS).
Qed.
Theorem parse_args_iff fuel : forall args v v' rest, (length args <= fuel)%nat ->
  (parse_args fuel args v = Some (v', rest) <-> exists ss, says args ss rest /\ v' = apply v ss).
Proof.
  induction fuel as [|fuel IH]; intros args v v' rest HL.
  - destruct args; [|cbn in HL; lia]. cbn. split; [intros H; injection H as <- <-; exists []; split; [constructor|reflexivity]|].
    intros (ss & H & ->). inversion H; reflexivity.
  - destruct args as [|a args].
    { cbn. split; [intros H; injection H as <- <-; exists []; split; [constructor|reflexivity]|]. intros (ss & H & ->). inversion H; reflexivity. }
    cbn [length] in HL. destruct (arg_kind_of a) as [a Ha| |c r|c r Hc].
    + rewrite parse_plain by exact Ha. split.
      * destruct (parse_args fuel args v) as [[v1 r1]|] eqn:E; [|discriminate]. intros H. injection H as <- <-. apply IH in E as (ss & HS & ->); [|lia].
        exists ss. split; [apply sy_argument; assumption|reflexivity].
      * intros (ss & H & ->). assert (HN : forall c r, a <> lit "-" ++ c :: r).
        { intros c r E. destruct Ha as [Ha|Ha]; [rewrite Ha in E; discriminate|apply (Ha (c :: r) E)]. }
        inversion H as [|a' l ss' rest' Ha' HS|l|n c f l ss' rest' Hs HS|n c f x b l ss' rest' Hs Hb HS|d l ss' rest' HS|d l ss' rest' HS|c r l ss1 l' ss2 rest' Hc HLt HS]; subst.
        -- assert (X : parse_args fuel args v = Some (apply v ss, rest')) by (apply IH; [lia|eauto]). rewrite X. reflexivity.
        -- destruct (HN _ _ eq_refl).
        -- destruct (HN _ _ eq_refl).
        -- destruct (HN _ _ eq_refl).
        -- destruct (HN _ _ eq_refl).
        -- destruct (HN _ _ eq_refl).
        -- destruct (HN _ _ eq_refl).
    + cbn. split.
      * intros H. injection H as <- <-. exists []. split; [apply sy_stop|reflexivity].
      * intros (ss & H & ->). inversion H as [|a' l ss' rest' Ha' HS|l|n c f l ss' rest' Hs HS|n c f x b l ss' rest' Hs Hb HS|d l ss' rest' HS|d l ss' rest' HS|c r l ss1 l' ss2 rest' Hc HLt HS]; subst.
        -- destruct Ha' as [E|E]; [discriminate|]. destruct (E [45] eq_refl).
        -- reflexivity.
        -- inversion Hs.
        -- match goal with E : _ ++ _ = [] |- _ => apply app_eq_nil in E as [_ E]; discriminate E | E : [] = _ ++ _ |- _ => symmetry in E; apply app_eq_nil in E as [_ E]; discriminate E end.
        -- congruence.
    + rewrite parse_long. split.
      * destruct (long_arg (c :: r) args v) as [[v1 args1]|] eqn:E; [|discriminate]. apply long_arg_iff in E as (s & HS & ->). intros H.
        apply IH in H as (ss & HS' & ->); [|apply long_shorter in HS; lia]. exists (s :: ss). split; [eapply says_long; eassumption|reflexivity].
      * intros (ss & H & ->).
        assert (HX : exists s l' ss', long_says (c :: r) args s l' /\ says l' ss' rest /\ ss = s :: ss').
        { inversion H as [|a' l ss' rest' Ha' HS|l|n c' f l ss' rest' Hs HS|n c' f x b l ss' rest' Hs Hb HS|d l ss' rest' HS|d l ss' rest' HS|c' r' l ss1 l' ss2 rest' Hc HLt HS]; subst.
          - destruct Ha' as [E|E]; [discriminate|]. destruct (E (45 :: c :: r) eq_refl).
          - eexists _, _, _. split; [|split; [eassumption|reflexivity]]. eapply ls_on; eassumption.
          - eexists _, _, _. split; [|split; [eassumption|reflexivity]]. eapply ls_value; eassumption.
          - eexists _, _, _. split; [|split; [eassumption|reflexivity]]. apply (ls_output_eq d).
          - eexists _, _, _. split; [|split; [eassumption|reflexivity]]. apply (ls_output d).
          - congruence. }
        destruct HX as (s & l' & ss' & H1 & H2 & ->). assert (X : long_arg (c :: r) args v = Some (apply1 v s, l')) by (apply long_arg_iff; eauto). rewrite X.
        apply IH; [apply long_shorter in H1; lia|]. exists ss'. split; [exact H2|reflexivity].
    + rewrite parse_short by exact Hc. split.
      * destruct (short_args (S (S (length r))) (c :: r) args v) as [[v1 args1]|] eqn:E; [|discriminate]. apply letters_iff in E as (s & HS & ->); [|cbn; lia]. intros H.
        apply IH in H as (ss & HS' & ->); [|apply letters_shorter in HS; lia]. exists (s ++ ss). split; [eapply sy_letters; eassumption|]. unfold apply. rewrite fold_left_app. reflexivity.
      * intros (ss & H & ->).
        inversion H as [|a' l ss' rest' Ha' HS|l|n c' f l ss' rest' Hs HS|n c' f x b l ss' rest' Hs Hb HS|d l ss' rest' HS|d l ss' rest' HS|c' r' l ss1 l' ss2 rest' Hc' HLt HS]; subst; try congruence.
        -- destruct Ha' as [E|E]; [discriminate|]. destruct (E (c :: r) eq_refl).
        -- assert (X : short_args (S (S (length r))) (c :: r) args v = Some (apply v ss1, l')) by (apply letters_iff; [cbn; lia|eauto]). rewrite X.
           apply IH; [apply letters_shorter in HLt; lia|]. exists ss2. split; [exact HS|]. unfold apply. rewrite fold_left_app. reflexivity.
Qed.
Lemma apply_fields v ss : v_version (apply v ss) = fold_left (fun b s => match s with SetVersion b' => b' | _ => b end) ss (v_version v) /\
  v_flag_help (apply v ss) = fold_left (fun b s => match s with SetHelp b' => b' | _ => b end) ss (v_flag_help v) /\
  v_output (apply v ss) = fold_left (fun d s => match s with SetOutput d' => d' | _ => d end) ss (v_output v) /\
  v_flag_trace (apply v ss) = fold_left (fun b s => match s with SetTrace b' => b' | _ => b end) ss (v_flag_trace v) /\
  v_trace (apply v ss) = v_trace v.
Proof. revert v; induction ss as [|s ss IH]; intros v; [repeat split|]. cbn [apply fold_left]. destruct (IH (apply1 v s)) as (A & B & C & D & E). unfold apply in *. rewrite A, B, C, D, E. destruct s; repeat split. Qed.
Theorem command_line_iff args : 
  (command_line args = FlagError <-> forall ss rest, ~ says args ss rest) /\
  (command_line args = ShowHelp <-> exists ss rest, says args ss rest /\ help_asked ss = true) /\
  (forall v rest, command_line args = Run v rest <->
     exists ss, says args ss rest /\ help_asked ss = false /\ v = Vars (version_asked ss) false (output_dir ss) (trace_asked ss) false).
Proof.
  unfold command_line. pose proof (fun v' rest => parse_args_iff (length args) args init_vars v' rest (le_n _)) as HI.
  assert (HV : forall ss, apply init_vars ss = Vars (version_asked ss) false (output_dir ss) (trace_asked ss) (help_asked ss)).
  { intros ss. destruct (apply_fields init_vars ss) as (A & B & C & D & E). destruct (apply init_vars ss). cbn in *. subst. reflexivity. }
  destruct (parse_args (length args) args init_vars) as [[v r]|] eqn:E.
  - destruct (proj1 (HI v r) eq_refl) as (ss & HS & Ev). rewrite HV in Ev. subst v.
    assert (HU : forall ss' r', says args ss' r' -> apply init_vars ss' = apply init_vars ss /\ r' = r).
    { intros ss' r' HS'. assert (X : Some (Vars (version_asked ss) false (output_dir ss) (trace_asked ss) (help_asked ss), r) = Some (apply init_vars ss', r')) by (apply HI; eauto).
      injection X as X1 X2. rewrite HV. split; congruence. }
    cbn [v_flag_help]. split; [|split].
    + split; [destruct (help_asked ss); discriminate|]. intros H. destruct (H ss r HS).
    + destruct (help_asked ss) eqn:EH; split; try discriminate; try reflexivity; [eauto|]. intros (ss' & r' & HS' & HH). destruct (HU _ _ HS') as [EE _]. rewrite !HV in EE. injection EE as _ _ _ EE. congruence.
    + intros v rest. destruct (help_asked ss) eqn:EH.
      * split; [discriminate|]. intros (ss' & HS' & HH & _). destruct (HU _ _ HS') as [EE _]. rewrite !HV in EE. injection EE as _ _ _ EE. congruence.
      * split.
        -- intros H. injection H as <- <-. exists ss. auto.
        -- intros (ss' & HS' & HH & ->). destruct (HU _ _ HS') as [EE ->]. rewrite !HV, HH, EH in EE. congruence.
  - split; [|split].
    + split; [|reflexivity]. intros _ ss rest HS. assert (X : None = Some (apply init_vars ss, rest)) by (apply HI; eauto). discriminate.
    + split; [discriminate|]. intros (ss & rest & HS & _). assert (X : None = Some (apply init_vars ss, rest)) by (apply HI; eauto). discriminate.
    + intros v rest. split; [discriminate|]. intros (ss & HS & _). assert (X : None = Some (apply init_vars ss, rest)) by (apply HI; eauto). discriminate.
Qed.

(** Texts that were cut off: C60. *)
From Coq Require Import Lia.
From Verif Require Import Str LexSpec Lexer LexerProof Grammar Schema Denote Utf8Spec Utf8 Utf8Proof JsonSpec GoJson JsonProof ParseKF ParseSpec ParseProof OrderSpec OrderProof PropSyntax PropParse Path FlagSpec Cli CliSpec CliProof PropCli Sample CutLex CutSpec CutProof.
Local Open Scope N_scope.

(** A file cut at any byte: if it still has the syntax, the declarations it has are the first ones of the whole file, word for word. *)
Theorem C60_the_declarations_are_the_first_ones : forall whole x y text text' n n' xs xs' ds ds' s', whole = x ++ y -> reads whole text -> reads x text' ->
  arranged n xs ds text -> arranged n' xs' ds' text' -> writes text' s' ->
  n' = n /\ begins xs' xs /\ begins ds' ds /\ (ds' = [] \/ xs' = xs).
Proof.
  intros whole x y text text' n n' xs xs' ds ds' s' E HB HX HA HA' HW. destruct (bytes_arranged _ _ _ _ _ _ _ _ _ _ _ _ E HB HX HA HA' HW) as (-> & xs2 & ds2 & -> & -> & D).
  split; [reflexivity|]. split; [exists xs2; reflexivity|]. split; [exists ds2; reflexivity|]. destruct D as [D| ->]; [left; exact D|right; symmetry; apply app_nil_r].
Qed.
Print Assumptions C60_the_declarations_are_the_first_ones.

Lemma elems_go_list {A} (l : list A) : elems (go_list l) = l. Proof. destruct l; reflexivity. Qed.
(** The schema: nothing in it is damaged, and only whole declarations at the end are missing. *)
Theorem C60_a_cut_file_lacks_whole_declarations : forall whole x y text text' s s', whole = x ++ y -> reads whole text -> reads x text' ->
  writes text s -> writes text' s' -> lacks_the_end s' s.
Proof.
  intros whole x y text text' s s' E HB HX HW HW'. destruct (writes_split _ _ HW) as (n & xs & ds & HA & L & ->). destruct (writes_split _ _ HW') as (n' & xs' & ds' & HA' & L' & ->).
  destruct (bytes_arranged _ _ _ _ _ _ _ _ _ _ _ _ E HB HX HA HA' HW') as (-> & xs2 & ds2 & -> & -> & D). unfold lacks_the_end, schema_of, tables_in, actions_in, inits_in in *. cbn [sc_owner sc_name sc_tables sc_actions sc_exts].
  rewrite !elems_go_list. rewrite map_app in *. rewrite !flat_map_app in *. split; [reflexivity|]. split; [reflexivity|]. split; [eexists; reflexivity|]. split; [eexists; reflexivity|]. split.
  - eexists _, _, _, _. split; [reflexivity|]. split; [rewrite <- app_assoc; reflexivity|exact L].
  - destruct D as [-> | ->]; [right; split; reflexivity|left; rewrite app_nil_r; reflexivity].
Qed.
Print Assumptions C60_a_cut_file_lacks_whole_declarations.
(** So what is accepted of a cut file was there in the whole one. *)
Theorem C60_what_is_accepted_was_written : forall w whole x y text text' m m' s s', whole = x ++ y -> reads whole text -> reads x text' ->
  o_result (parse_kf w text [] m) = Some s -> parse_kf w text' [] m' = Outcome (Some s') [] ->
  lacks_the_end s' s /\ (forall t, In t (elems (sc_tables s')) -> In t (elems (sc_tables s))) /\ (forall a, In a (elems (sc_actions s')) -> In a (elems (sc_actions s))).
Proof.
  intros w whole x y text text' m m' s s' E HB HX HR HP. apply C18_no_error_iff_accepted in HP as [HW' _].
  assert (HW : writes text s).
  { destruct (C18_every_outcome w text m) as [(_ & K)|[(e & _ & K)|[(s1 & z & Hw & _ & K)|(s1 & (Hw & _) & K)]]]; rewrite K in HR; cbn in HR; try discriminate; injection HR as <-; exact Hw. }
  pose proof (C60_a_cut_file_lacks_whole_declarations _ _ _ _ _ _ _ E HB HX HW HW') as H. split; [exact H|].
  destruct H as (_ & _ & (tb & ET) & _ & (a & b & i & j & E1 & E2 & _) & _). split; intros z Hz.
  - rewrite ET. apply in_or_app. auto.
  - rewrite E2. rewrite E1 in Hz. apply in_app_or in Hz. rewrite !in_app_iff. tauto.
Qed.
Print Assumptions C60_what_is_accepted_was_written.
(** The program on a cut file: refused, or the output is the document of a schema that lacks whole declarations only. *)
Theorem C60_the_output_for_a_cut_file : forall version bf w o fs args p d whole x y text s, asks args p d -> fs (resolve o p) = Some x -> whole = x ++ y -> reads whole text -> writes text s ->
  r_code (main version bf w o fs args) = 0 -> os_write o = None -> (forall old, fs (resolve o (out_file p d)) = Some old -> old = []) ->
  exists s' content, r_files (main version bf w o fs args) (resolve o (out_file p d)) = Some content /\ json_text (document (NSchema s')) (runes content) /\ lacks_the_end s' s.
Proof.
  intros version bf w o fs args p d whole x y text s HA HF E HB HW HC HO HN. destruct (C27_file_holds_the_schema version bf w o fs args p d HA HC HO HN) as (data & text' & s' & content & HD & HR & [HW' _] & HR2 & HJ).
  rewrite HF in HD. injection HD as <-. exists s', content. split; [exact HR2|]. split; [exact HJ|]. eapply C60_a_cut_file_lacks_whole_declarations; eassumption.
Qed.
Print Assumptions C60_the_output_for_a_cut_file.
(** The other way round: behind each declaration a cut is possible, and what is left has exactly the declarations before it. *)
Theorem C60_each_beginning_is_a_cut : forall n xs ds1 ds2 text, arranged n xs (ds1 ++ ds2) text -> exists x y, text = x ++ y /\ arranged n xs ds1 x.
Proof.
  intros n xs ds1 ds2 text (ts & t & HT & HX & HF & E). rewrite map_app, concat_app, !app_assoc in E. destruct (drop_split _ _ _ E) as (t1 & t2 & -> & E1 & _).
  exists (concat (map tx t1)), (concat (map tx t2)). split; [rewrite (tokens_of_concat _ _ HT), map_app, concat_app; reflexivity|]. exists t1, t. split; [eapply tokens_beginning; exact HT|].
  split; [exact HX|]. split; [apply Forall_app in HF; tauto|]. rewrite E1, <- app_assoc. reflexivity.
Qed.
Print Assumptions C60_each_beginning_is_a_cut.

(** Not every cut is noticed. *)
Definition whole_text : str := lit "database d; table t { a int } // e
table u { b int }".
Theorem C60_every_cut_is_refused_refuted : ~ forall w whole x y text text' s m, whole = x ++ y -> y <> [] -> reads whole text -> reads x text' ->
  accepted w text s -> o_listener (parse_kf w text' [] m) <> [].
Proof.
  intros H.
  apply (H sample_world (bytes_of whole_text) (bytes_of (firstn 34 whole_text)) (bytes_of (skipn 34 whole_text)) (runes (bytes_of whole_text)) (runes (bytes_of (firstn 34 whole_text)))
    (Schema [] (lit "d") (Some [Table (lit "t") (Some [Column (lit "a") (lit "int") None]) None None; Table (lit "u") (Some [Column (lit "b") (lit "int") None]) None None]) None None) Default).
  - vm_compute; reflexivity.
  - discriminate.
  - apply runes_reads.
  - apply runes_reads.
  - apply (parse_accepts _ _ Default). vm_compute; reflexivity.
  - vm_compute; reflexivity.
Qed.
Print Assumptions C60_every_cut_is_refused_refuted.

(** Cases: cut within the second table (refused), and within a character of a comment (accepted, without the second table). *)
Definition accents : str := lit "database d; table t { a int } // " ++ [8364] ++ [10] ++ lit "table u { b int }".
Definition one_table : schema := Schema [] (lit "d") (Some [Table (lit "t") (Some [Column (lit "a") (lit "int") None]) None None]) None None.
Example C60_case : let b := bytes_of accents in
  o_result (parse_kf sample_world (runes b) [] Default) = Some (Schema [] (lit "d") (Some [Table (lit "t") (Some [Column (lit "a") (lit "int") None]) None None; Table (lit "u") (Some [Column (lit "b") (lit "int") None]) None None]) None None) /\
  o_listener (parse_kf sample_world (runes (firstn 50 b)) [] Default) <> [] /\
  runes (firstn 35 b) = lit "database d; table t { a int } // " ++ [65533; 65533] /\
  parse_kf sample_world (runes (firstn 35 b)) [] Default = Outcome (Some one_table) [].
Proof. split; [vm_compute; reflexivity|]. split; [vm_compute; discriminate|]. split; vm_compute; reflexivity. Qed.

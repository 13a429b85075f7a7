(** Nothing is ignored and nothing is made up: C69. *)
From Coq Require Import Permutation Lia.
From Verif Require Import Tokens LexSpec Lexer LexerProof Grammar Schema Denote NameSpec Segments Validator ValidSpec Sample ParseKF ParseSpec ParseProof ParseProof2 Outcomes KeepSpec KeepProof.

(** C69 *)
Theorem C69_nothing_lost_nothing_invented : forall w m text s l ts, parse_kf w text [] m = Outcome (Some s) l -> tokens_of text ts ->
  says_words (drop_layout ts) (schema_words s).
Proof. intros w m text s l ts H Ht. apply result_writes in H as (us & Hu & HD). rewrite (tokens_of_fun _ _ _ Hu Ht) in HD. apply sw_schema. exact HD. Qed.
Print Assumptions C69_nothing_lost_nothing_invented.
Lemma chunk_text_at c wd : In wd (chunk_text c) -> wd = chars c.
Proof. destruct c as [|x [|y r]]; cbn [chunk_text]; [intros [<-|[]]; reflexivity| |intros [<-|[]]; reflexivity]. destruct (free_word (ty x)); intros []; [|contradiction]. subst. unfold chars. cbn. rewrite app_nil_r. reflexivity. Qed.
(** Every word of the text that the writer chose is a stored word, or part of a stored statement or annotation. *)
Theorem C69_every_word_is_found : forall w m text s l ts x, parse_kf w text [] m = Outcome (Some s) l -> tokens_of text ts ->
  In x (drop_layout ts) -> free_word (ty x) = true -> exists wd a b, In wd (schema_words s) /\ wd = a ++ tx x ++ b.
Proof.
  intros w m text s l ts x H Ht Hx Hf. destruct (C69_nothing_lost_nothing_invented _ _ _ _ _ _ H Ht) as (cs & E & F & P). rewrite E in Hx. apply in_concat in Hx as (c & Hc & Hx).
  apply in_split in Hx as (u & v & Ec). exists (chars c), (chars u), (chars v). split.
  - eapply Permutation_in; [exact P|]. apply in_flat_map. exists c. split; [exact Hc|]. destruct c as [|y [|z r]]; [destruct u; discriminate| |left; reflexivity]. cbn [chunk_text].
    assert (y = x) as -> by (destruct u as [|? [|? ?]]; cbn in Ec; congruence). rewrite Hf. left. unfold chars. cbn. symmetry. apply app_nil_r.
  - rewrite Ec. unfold chars. rewrite map_app, concat_app. reflexivity.
Qed.
Print Assumptions C69_every_word_is_found.
(** Every stored word stands in the text. *)
Theorem C69_no_word_from_nowhere : forall w m text s l ts wd, parse_kf w text [] m = Outcome (Some s) l -> tokens_of text ts -> In wd (schema_words s) ->
  exists pre seg post, drop_layout ts = pre ++ seg ++ post /\ chunk seg /\ wd = chars seg.
Proof.
  intros w m text s l ts wd H Ht Hw. destruct (C69_nothing_lost_nothing_invented _ _ _ _ _ _ H Ht) as (cs & E & F & P). apply (Permutation_in _ (Permutation_sym P)) in Hw. apply in_flat_map in Hw as (c & Hc & Hw).
  rewrite Forall_forall in F. pose proof (F _ Hc) as Ch. apply in_split in Hc as (u & v & ->). exists (concat u), c, (concat v). split; [rewrite E, concat_app; reflexivity|]. split; [exact Ch|]. apply chunk_text_at. exact Hw.
Qed.
Print Assumptions C69_no_word_from_nowhere.
(** There are no more stored words than tokens. *)
Theorem C69_no_more_words_than_tokens : forall w m text s l ts, parse_kf w text [] m = Outcome (Some s) l -> tokens_of text ts ->
  (length (schema_words s) <= length (drop_layout ts))%nat.
Proof.
  intros w m text s l ts H Ht. destruct (C69_nothing_lost_nothing_invented _ _ _ _ _ _ H Ht) as (cs & E & F & P). rewrite <- (Permutation_length P), E. clear E P H Ht. induction F as [|c cs Hc F IH]; [reflexivity|]. cbn [flat_map concat]. rewrite !app_length.
  assert (length (chunk_text c) <= length c)%nat; [|lia]. destruct c as [|x [|y r]]; [|cbn; destruct (free_word (ty x)); cbn; lia|cbn; lia]. exfalso. destruct Hc as [(x & E)|[(st & E)|(an & D & E)]]; [discriminate| |discriminate E].
  inversion E as [|u D]; subst. pose proof (call_long _ D) as G. cbn in G. lia.
Qed.
Print Assumptions C69_no_more_words_than_tokens.
(** A case: the words of a program. *)
Example C69_case : schema_words sample_schema =
  map lit ["mydb"; "erc20"; "address"; "'0xabc'"; "n"; "7"; "token"; "users"; "id"; "name"; "30"; "'x'"; "#idx"; "name"; "id"; "posts"; "id"; "uid"; "uid"; "users"; "id";
    "@kgw(authn='true')"; "create"; "$id"; "$name"; "insert into users  values ($id, $name);"; "all"; "select * from users;"; "init"; "$x=token.setup(1);"; "create($x,'a');"]%string
  /\ exists ts, tokens_of sample_text ts /\ says_words (drop_layout ts) (schema_words sample_schema).
Proof.
  split; [vm_compute; reflexivity|]. destruct (result_writes _ _ _ _ _ (sample_parses Default)) as (ts & Ht & HD). exists ts. split; [exact Ht|]. apply sw_schema. exact HD.
Qed.

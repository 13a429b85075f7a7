(** The JSON of a schema against the tokens it was written with: for C63. *)
From Coq Require Import Lia Bool.
From Verif Require Import Str Schema Utf8Spec Utf8 Utf8Proof JsonSpec GoJson JsonProof LexSpec Grammar Denote SizeJson.
Local Open Scope nat_scope.

(** The weight of a token: the length of its text, but at least one. *)
Definition heft (ts : list tok) : nat := total (map (fun t => Nat.max 1 (length (tx t))) ts).
Lemma heft_app a b : heft (a ++ b) = heft a + heft b.
Proof. unfold heft. rewrite map_app. apply total_app. Qed.
Lemma heft_cons t a : heft (t :: a) = Nat.max 1 (length (tx t)) + heft a. Proof. reflexivity. Qed.
Lemma heft_nil : heft [] = 0. Proof. reflexivity. Qed.
Lemma heft_chars ts : length (chars ts) <= heft ts.
Proof. induction ts as [|t ts IH]; [reflexivity|]. unfold chars in *. cbn [map concat]. rewrite app_length, heft_cons. lia. Qed.

Section Lists.
  Context {A : Type} (D : A -> list tok -> Prop) (f : A -> nat) (K : nat).
  Hypothesis H : forall a ts, D a ts -> f a <= K * heft ts.
  Lemma series_heft l ts : series D l ts -> total (map f l) <= K * heft ts.
  Proof. induction 1 as [|a ts l us HD Hl IH]; [cbn; lia|]. rewrite heft_app. cbn [map total]. specialize (H _ _ HD). lia. Qed.
  Lemma listed_heft l ts : listed D l ts -> total (map f l) <= K * heft ts.
  Proof. induction 1 as [a ts HD|a ts l us HD Hl IH]; cbn [map total]; specialize (H _ _ HD); [lia|]. rewrite heft_app, heft_cons. lia. Qed.
End Lists.

Section Json.
  Variable bf : bool.
  Notation size d v := (length (pretty bf d v)).
  Notation bytes := bytes_of.
  Lemma str_size d n : size d (GStr (bytes n)) <= 6 * length n + 2. Proof. apply quote_bytes_len. Qed.
  (** The items of a slice *)
  Definition items {A} (d : nat) (g : A -> gval) (m : A -> A) (l : list A) : nat := total (map (fun a => over d (size (S d) (g (m a)))) l).
  Lemma some_size {A} d (g : A -> gval) m (l : list A) : size d (gslice g (smap m (Some l))) <= items d g m l + 2 * d + 4.
  Proof. cbn [smap option_map gslice]. etransitivity; [apply slice_len|]. rewrite !map_map. unfold items. lia. Qed.
  Lemma slice_size {A} d (g : A -> gval) m (l : list A) s : slice_of l s -> size d (gslice g (smap m s)) <= items d g m l + 2 * d + 4.
  Proof. intros [(_ & ->)|(_ & ->)]; [|apply some_size]. cbn [smap option_map gslice pretty]. change (length (lit "null")) with 4. lia. Qed.

  Ltac lits := repeat match goal with
    | |- context [length (quote bf (lit ?s))] => let n := eval vm_compute in (length (quote bf (lit s))) in change (length (quote bf (lit s))) with n
    | |- context [length (quote bf (bytes (lit ?s)))] => let n := eval vm_compute in (length (quote bf (bytes (lit s)))) in change (length (quote bf (bytes (lit s)))) with n
    | |- context [length (tx (fixed ?t))] => let n := eval vm_compute in (length (tx (fixed t))) in change (length (tx (fixed t))) with n
    | |- context [length (lit ?s)] => let n := eval vm_compute in (length (lit s)) in change (length (lit s)) with n
    end.
  Ltac texts := repeat match goal with |- context [length (quote bf (bytes ?n))] => let H := fresh "Q" in pose proof (quote_bytes_len bf n) as H; revert H; generalize (length (quote bf (bytes n))); intros ? H end.
  Ltac weigh := unfold in_parens; repeat (rewrite heft_app || rewrite heft_cons || rewrite heft_nil); cbn [tx]; rewrite ?app_length.
  Lemma over_struct d fs k : over d (total (map (member_len bf (S d)) fs) + 2 * S d + 2) <= k -> over d (size (S d) (GStruct fs)) <= k.
  Proof. unfold over. pose proof (struct_len bf (S d) fs). lia. Qed.
  Ltac open_struct := apply over_struct; cbn [map total]; unfold member_len, over, field, field_oe; cbn [fst snd].
  Ltac done_ := cbn [pretty]; lits; texts; weigh; lits; lia.

  Lemma name_size d a ts : d <= 5 -> w_name a ts -> over d (size (S d) (GStr (bytes a))) <= 32 * heft ts.
  Proof. intros Hd ->. unfold over. pose proof (str_size (S d) a). weigh. lia. Qed.
  Lemma param_size a ts : w_param a ts -> over 3 (size 4 (GStr (bytes a))) <= 32 * heft ts.
  Proof. intros ->. unfold over. pose proof (str_size 4 a). weigh. lia. Qed.
  Lemma value_heft v ts : w_value v ts -> length v <= heft ts /\ 1 <= heft ts.
  Proof. intros [->| ->]; weigh; lia. Qed.
  Lemma attribute_size a ts : w_attribute a ts -> over 5 (size 6 (g_attribute (map_attribute bytes a))) <= 32 * heft ts.
  Proof.
    intros H. destruct H; unfold g_attribute, map_attribute; cbn [at_type at_value option_map]; open_struct; try solve [done_].
    apply value_heft in H. done_.
  Qed.
  Lemma column_size c ts : w_column c ts -> over 3 (size 4 (g_column (map_column bytes c))) <= 32 * heft ts.
  Proof.
    intros H. destruct H as [n ty t l s u Ht Hl Hs]. unfold g_column, map_column. cbn [co_name co_type co_attrs]. open_struct.
    pose proof (slice_size 5 g_attribute (map_attribute bytes) l s Hs) as E. pose proof (series_heft _ _ 32 attribute_size _ _ Hl) as E2. fold (items 5 g_attribute (map_attribute bytes) l) in E2.
    destruct Ht; done_.
  Qed.
  Lemma names_size d l ts : d <= 5 -> listed w_name l ts -> items d GStr bytes l <= 32 * heft ts.
  Proof. intros Hd H. apply (listed_heft w_name _ 32 (fun a ts => name_size d a ts Hd) _ _ H). Qed.
  Lemma index_size i ts : w_index i ts -> over 3 (size 4 (g_index (map_index bytes i))) <= 32 * heft ts.
  Proof.
    intros H. destruct H as [n k t l u Hk Hl]. unfold g_index, map_index. cbn [ix_name ix_cols ix_type]. open_struct.
    pose proof (some_size 5 GStr bytes l) as E. apply (names_size 5) in Hl; [|lia]. destruct Hk; done_.
  Qed.
  Lemma fkaction_size a ts : w_fkaction a ts -> over 5 (size 6 (g_fkaction (map_fkaction bytes a))) <= 32 * heft ts.
  Proof.
    intros H. destruct H as [on_ do_ t o u Ht Ho Hu]. unfold g_fkaction, map_fkaction. cbn [fk_on fk_do]. open_struct. destruct Ht, Hu; done_.
  Qed.
  Lemma fkey_size k ts : w_fkey k ts -> over 3 (size 4 (g_fkey (map_fkey bytes k))) <= 32 * heft ts.
  Proof.
    intros H. destruct H as [k r ch tc t pa tp acts sacts ta Hk Hr Hch Hpa Ha Hs]. unfold g_fkey, map_fkey. cbn [fk_child fk_parent fk_table fk_acts]. open_struct.
    pose proof (some_size 5 GStr bytes ch) as E1. pose proof (some_size 5 GStr bytes pa) as E2. pose proof (slice_size 5 g_fkaction (map_fkaction bytes) acts sacts Hs) as E3.
    apply (names_size 5) in Hch; [|lia]. apply (names_size 5) in Hpa; [|lia]. pose proof (series_heft _ _ 32 fkaction_size _ _ Ha) as E4. fold (items 5 g_fkaction (map_fkaction bytes) acts) in E4.
    destruct Hk as [-> | ->], Hr as [-> | ->]; done_.
  Qed.
  Lemma members_size is fs ts : w_members is fs ts -> items 3 g_index (map_index bytes) is + items 3 g_fkey (map_fkey bytes) fs <= 32 * heft ts.
  Proof.
    induction 1 as [|i t is fs u Hi Hm IH|f t is fs u Hf Hm IH]; [cbn; lia| |]; unfold items in *; cbn [map total].
    - apply index_size in Hi. weigh. lia.
    - apply fkey_size in Hf. weigh. lia.
  Qed.
  Lemma table_size t ts : w_table t ts -> over 1 (size 2 (g_table (map_table bytes t))) <= 32 * heft ts.
  Proof.
    intros H. destruct H as [n cs tc is sis fs sfs tm o Hc Hm Hi Hf Ho]. unfold g_table, map_table. cbn [tb_name tb_cols tb_idx tb_fks]. open_struct.
    pose proof (some_size 3 g_column (map_column bytes) cs) as E1. pose proof (slice_size 3 g_index (map_index bytes) is sis Hi) as E2. pose proof (slice_size 3 g_fkey (map_fkey bytes) fs sfs Hf) as E3.
    apply members_size in Hm. pose proof (listed_heft _ _ 32 column_size _ _ Hc) as E4. fold (items 3 g_column (map_column bytes) cs) in E4. done_.
  Qed.
  Lemma config_size c ts : w_config c ts -> over 3 (size 4 (g_config (map_config bytes c))) <= 32 * heft ts.
  Proof. intros H. destruct H as [n v t Hv]. unfold g_config, map_config. cbn [ec_arg ec_val]. open_struct. apply value_heft in Hv. done_. Qed.
  Lemma extension_size e ts : w_extension e ts -> over 1 (size 2 (g_extension (map_extension bytes e))) <= 32 * heft ts.
  Proof.
    intros H. destruct H as [n a|n l t a Hl]; unfold g_extension, map_extension; cbn [ex_name ex_config ex_alias].
    - open_struct. cbn [smap option_map gslice]. done_.
    - open_struct. pose proof (some_size 3 g_config (map_config bytes) l) as E. pose proof (listed_heft _ _ 32 config_size _ _ Hl) as E2. fold (items 3 g_config (map_config bytes) l) in E2. done_.
  Qed.
  Lemma call_some ts : derives (R call_stmt) ts -> 1 <= heft ts.
  Proof.
    intros H. inversion H as [| |n ? Hr E| | | | |]; subst. cbn [rule] in Hr.
    inversion Hr as [| | |a b u v Hu Hv E| | | |]; subst. inversion Hv as [| | |a b u' v' Hu' Hv' E| | | |]; subst. inversion Hv'; subst. rewrite !heft_app, heft_cons. lia.
  Qed.
  Lemma stmt_size s ts : w_stmt s ts -> over 3 (size 4 (GStr (bytes s))) <= 32 * heft ts.
  Proof.
    intros H. unfold over. pose proof (str_size 4 s) as E. destruct H as [s|ts Hd].
    - rewrite app_length in E. revert E. lits. weigh. lits. lia.
    - pose proof (heft_chars ts). apply call_some in Hd. lia.
  Qed.
  Lemma annotation_size s ts : w_annotation s ts -> over 3 (size 4 (GStr (bytes s))) <= 32 * heft ts.
  Proof. intros (_ & H). unfold over. pose proof (str_size 4 s) as E. pose proof (heft_chars ts) as E2. rewrite H, app_length in E2. revert E2. lits. lia. Qed.
  Lemma params_size l ts : w_params l ts -> items 3 GStr bytes l <= 32 * heft ts.
  Proof.
    intros [|l' ts' H|l' ts' H]; [cbn; lia| |]; pose proof (listed_heft _ _ 32 param_size _ _ H) as E; fold (items 3 GStr bytes l') in E; [exact E|]. weigh. lia.
  Qed.
  Lemma body_size l ts : w_body l ts -> items 3 GStr bytes l <= 32 * heft ts.
  Proof. intros (_ & H). exact (series_heft _ _ 32 stmt_size _ _ H). Qed.
  Lemma action_size a ts : w_action a ts -> over 1 (size 2 (g_action (map_action bytes a))) <= 32 * heft ts.
  Proof.
    intros H. destruct H as [n anns sanns tn ins sins ti l pub mut aux body tb Ha Hsa Hi Hsi Hl Hp Hv Hnv Ho Hno Hb].
    unfold g_action, map_action. cbn [ac_name ac_annots ac_inputs ac_public ac_mut ac_aux ac_stmts]. open_struct.
    pose proof (slice_size 3 GStr bytes anns sanns Hsa) as E1. pose proof (slice_size 3 GStr bytes ins sins Hsi) as E2. pose proof (some_size 3 GStr bytes body) as E3.
    pose proof (series_heft _ _ 32 annotation_size _ _ Ha) as E4. fold (items 3 GStr bytes anns) in E4. apply params_size in Hi. apply body_size in Hb.
    assert (Em : size 3 (GStr (bytes mut)) <= 8).
    { cbn [pretty]. destruct (in_dec tt_eq_dec VIEW_ l) as [I|I]; [rewrite (Hv I)|rewrite (Hnv I)]; lits; lia. }
    assert (Eu : size 3 (gslice GStr (smap bytes aux)) <= 27).
    { destruct (in_dec tt_eq_dec OWNER_ l) as [I|I]; [rewrite (Ho I)|rewrite (Hno I)]; vm_compute; lia. }
    assert (Ep : size 3 (GBool pub) <= 5) by (destruct pub; cbn; lia).
    revert E1 E2 E3 Em Eu Ep. generalize (size 3 (gslice GStr (smap bytes aux))) (size 3 (GStr (bytes mut))) (size 3 (GBool pub)). intros. done_.
  Qed.
  Lemma init_size a ts : w_init a ts -> over 1 (size 2 (g_action (map_action bytes a))) <= 32 * heft ts.
  Proof.
    intros H. destruct H as [body tb Hb]. unfold g_action, map_action. cbn [ac_name ac_annots ac_inputs ac_public ac_mut ac_aux ac_stmts]. open_struct.
    pose proof (some_size 3 GStr bytes body) as E3. apply body_size in Hb. change (size 3 (gslice GStr (smap bytes None))) with 4. done_.
  Qed.
  Lemma decls_size ta ac ini ts : w_decls ta ac ini ts -> items 1 g_table (map_table bytes) ta + items 1 g_action (map_action bytes) (ac ++ ini) <= 32 * heft ts.
  Proof.
    induction 1 as [|t ts ta ac ini us Ht Hd IH|a ts ta ac ini us Ht Hd IH|i ts ta ac us Ht Hd IH]; [cbn; lia| | |]; unfold items in *; rewrite ?map_app, ?total_app in *; cbn [map total] in *; weigh.
    - apply table_size in Ht. lia.
    - apply action_size in Ht. lia.
    - apply init_size in Ht. lia.
  Qed.
  Theorem schema_size s ts : denotes ts s -> size 0 (g_schema (map_schema bytes s)) <= 32 * heft ts.
  Proof.
    intros H. destruct H as [n xs sxs tx ta sta ac ini sac td Hx Hsx Hd Hst Hsa]. unfold g_schema, map_schema. cbn [sc_owner sc_name sc_tables sc_actions sc_exts].
    pose proof (slice_size 1 g_extension (map_extension bytes) xs sxs Hsx) as E1. pose proof (slice_size 1 g_table (map_table bytes) ta sta Hst) as E2. pose proof (slice_size 1 g_action (map_action bytes) (ac ++ ini) sac Hsa) as E3.
    pose proof (series_heft _ _ 32 extension_size _ _ Hx) as E4. fold (items 1 g_extension (map_extension bytes) xs) in E4. apply decls_size in Hd.
    etransitivity; [apply struct_len|]. cbn [map total]. unfold member_len, over, field, field_oe. cbn [fst snd]. change (bytes []) with (bytes (lit "")). done_.
  Qed.
End Json.

(** The look-ups accept exactly the spellings of the documented words. *)
From Verif Require Import Str Utf8Spec Utf8 Utf8Proof Types TypesSpec.
Local Open Scope N_scope.

Lemma enc_ascii c : c < 128 -> encode1 c = [c].
Proof. intros H. unfold encode1. destruct (N.ltb_spec c 128); [reflexivity|lia]. Qed.
Lemma enc_high c : 128 <= c -> exists b t, encode1 c = b :: t /\ 128 <= b.
Proof.
  intros H. unfold encode1. destruct (N.ltb_spec c 128); [lia|].
  assert (P : forall k x, 128 <= k -> 128 <= k + x) by (intros; lia).
  destruct (c <? 2048); [eexists _, _; split; [reflexivity|apply P; lia]|].
  destruct ((1114111 <? c) || ((55296 <=? c) && (c <=? 57343))); [eexists _, _; split; [reflexivity|lia]|].
  destruct (c <? 65536); eexists _, _; (split; [reflexivity|apply P; lia]).
Qed.
Lemma runes_ascii s : Forall (fun c => c < 128) s -> runes s = s.
Proof.
  intros H. apply runes_iff. induction H as [|c s Hc Hs IH]; [constructor|].
  assert (Hsc : scalar c) by (left; lia). pose proof (rd_char c s s Hsc IH) as HR. rewrite utf8_1 in HR by exact Hc. exact HR.
Qed.
Lemma to_lower_runes f s : unicode_lower f -> to_lower f s = bytes_of (map f (runes s)).
Proof.
  intros (HA & _). unfold to_lower. destruct (forallb (fun c => c <? 128) s) eqn:E; [|reflexivity]. rewrite forallb_forall in E.
  assert (HF : Forall (fun c => c < 128) s) by (apply Forall_forall; intros c Hc; apply N.ltb_lt, E, Hc). rewrite (runes_ascii s HF). clear E.
  induction HF as [|c s Hc Hs IH]; [reflexivity|]. cbn [map]. change (bytes_of (f c :: map f s)) with (encode1 (f c) ++ bytes_of (map f s)). rewrite <- IH.
  unfold lower_byte at 1. rewrite <- HA by exact Hc. rewrite enc_ascii; [reflexivity|]. rewrite HA by exact Hc.
  destruct ((65 <=? c) && (c <=? 90)) eqn:E; [apply andb_prop in E as [_ E]; apply N.leb_le in E; lia|exact Hc].
Qed.

(** A word of lower-case letters without k. *)
Definition wordy (w : list N) : Prop := Forall (fun c => 97 <= c <= 122 /\ c <> 107) w.
Lemma lower_letter f c x : unicode_lower f -> 97 <= x <= 122 -> x <> 107 -> (f c = x <-> ascii_case c x \/ c = 304 /\ x = 105).
Proof.
  intros (HA & H1 & H2 & HH) Hx Hk. unfold ascii_case. destruct (N.ltb_spec c 128) as [Hc|Hc].
  - rewrite HA by exact Hc. destruct (N.leb_spec 65 c), (N.leb_spec c 90); cbn [andb]; lia.
  - destruct (N.eq_dec c 304) as [->|N1]; [rewrite H1; lia|]. destruct (N.eq_dec c 8490) as [->|N2]; [rewrite H2; lia|].
    specialize (HH c Hc N1 N2). lia.
Qed.
Lemma spelling_reads f bs rs : unicode_lower f -> reads bs rs -> forall w, wordy w -> (bytes_of (map f rs) = w <-> spelling bs w).
Proof.
  intros Hf H. induction H as [|r bs rs Hr H IH|b bs rs Hb H IH]; intros w Hw.
  - cbn. split; [intros <-; constructor|]. intros Hs. inversion Hs; reflexivity.
  - cbn [map]. change (bytes_of (f r :: map f rs)) with (encode1 (f r) ++ bytes_of (map f rs)). split.
    + intros E. destruct (N.ltb_spec (f r) 128) as [Hl|Hl].
      * rewrite enc_ascii in E by exact Hl. destruct w as [|x w]; [discriminate|]. injection E as Ex E. inversion Hw as [|? ? [Hx Hk] Hw']; subst.
        destruct (proj1 (lower_letter f r (f r) Hf Hx Hk) eq_refl) as [HC|[-> HC]].
        -- assert (Hr' : r < 128) by (destruct HC as [HC|HC]; lia). rewrite utf8_1 by exact Hr'. apply (sp_case r); [exact HC|]. apply IH; [exact Hw'|reflexivity].
        -- rewrite HC. apply sp_dotted. apply IH; [exact Hw'|reflexivity].
      * destruct (enc_high _ Hl) as (b & t & Eb & Hb). rewrite Eb in E. destruct w as [|x w]; [discriminate|]. injection E as Ex _.
        inversion Hw as [|? ? [Hx _] _]; subst. lia.
    + intros Hs. inversion Hs as [E1 E2|c x s v Hc Hs' E1 E2|s v Hs' E1 E2]; subst.
      * destruct (utf8_cons r) as (b & t & Eb). rewrite Eb in E1. discriminate.
      * inversion Hw as [|? ? [Hx Hk] Hw']; subst. assert (Hc' : c < 128) by (destruct Hc as [->|Hc]; lia).
        assert (D : decode1 (c :: s) = Some (c, s)). { unfold decode1. destruct (N.ltb_spec c 128); [reflexivity|lia]. }
        rewrite E1, (decode_utf8 r bs Hr) in D. injection D as -> ->.
        assert (EX : f c = x) by (apply (lower_letter f c x Hf Hx Hk); left; exact Hc). rewrite EX, enc_ascii by lia. cbn [app]. f_equal. apply IH; assumption.
      * inversion Hw as [|? ? _ Hw']; subst. assert (D : decode1 (196 :: 176 :: s) = Some (304, s)) by reflexivity.
        rewrite E1, (decode_utf8 r bs Hr) in D. injection D as -> ->. destruct Hf as (_ & H1 & _). rewrite H1, enc_ascii by lia. cbn [app]. f_equal. apply IH; assumption.
  - cbn [map]. change (bytes_of (f 65533 :: map f rs)) with (encode1 (f 65533) ++ bytes_of (map f rs)). split.
    + intros E. destruct Hf as (_ & _ & _ & HH). specialize (HH 65533 ltac:(lia) ltac:(lia) ltac:(lia)). destruct (enc_high _ HH) as (d & t & Ed & Hd).
      rewrite Ed in E. destruct w as [|x w]; [discriminate|]. injection E as Ex _. inversion Hw as [|? ? [Hx _] _]; subst. lia.
    + intros Hs. exfalso. inversion Hs as [|c x s v Hc Hs' E1 E2|s v Hs' E1 E2]; subst.
      * inversion Hw as [|? ? [Hx _] _]; subst. assert (Hc' : b < 128) by (destruct Hc as [->|Hc]; lia).
        apply (Hb b bs); [left; lia|]. rewrite utf8_1 by exact Hc'. reflexivity.
      * apply (Hb 304 s); [left; lia|]. reflexivity.
Qed.
Theorem to_lower_iff f s w : unicode_lower f -> wordy w -> (to_lower f s = w <-> spelling s w).
Proof. intros Hf Hw. rewrite to_lower_runes by exact Hf. apply spelling_reads; [exact Hf|apply runes_reads|exact Hw]. Qed.

(** Look-ups. *)
Definition table_ok (m : list (list N * list N)) : Prop := Forall (fun p => wordy (fst p)) m /\ NoDup (map fst m).
Lemma lookup_In m k v : NoDup (map fst m) -> (lookup m k = Some v <-> In (k, v) m).
Proof.
  induction m as [|[a b] m IH]; intros HN; cbn; [split; [discriminate|tauto]|]. inversion HN as [|? ? Hn HN']; subst.
  destruct (str_eqb a k) eqn:E.
  - apply str_eqb_eq in E. subst a. split; [intros H; injection H as <-; left; reflexivity|]. intros [H|H]; [injection H as <-; reflexivity|].
    exfalso. apply Hn. change k with (fst (k, v)). apply in_map. exact H.
  - apply str_eqb_neq in E. rewrite IH by exact HN'. split; [auto|]. intros [H|H]; [injection H as -> _; congruence|exact H].
Qed.
Lemma get_found m msg f s t : table_ok m -> unicode_lower f -> (get m msg f s = inl t <-> exists w, In (w, t) m /\ spelling s w).
Proof.
  intros [HW HN] Hf. unfold get. rewrite Forall_forall in HW. split.
  - destruct (lookup m (to_lower f s)) as [t'|] eqn:E; [|discriminate]. intros H. injection H as ->. apply lookup_In in E; [|exact HN].
    exists (to_lower f s). split; [exact E|]. apply (to_lower_iff f); [exact Hf|exact (HW _ E)|reflexivity].
  - intros (w & Hi & Hs). apply (to_lower_iff f) in Hs; [|exact Hf|exact (HW _ Hi)]. rewrite Hs. apply lookup_In in Hi; [|exact HN]. rewrite Hi. reflexivity.
Qed.
Lemma get_error m msg f s : table_ok m -> unicode_lower f -> (get m msg f s = inr (msg ++ s) <-> forall w t, In (w, t) m -> ~ spelling s w).
Proof.
  intros HT Hf. destruct (get m msg f s) as [t|e] eqn:E.
  - split; [discriminate|]. intros H. apply get_found in E as (w & Hi & Hs); [|exact HT|exact Hf]. destruct (H w t Hi Hs).
  - split.
    + intros _ w t Hi Hs. assert (X : get m msg f s = inl t) by (apply get_found; eauto). congruence.
    + intros _. unfold get in E. destruct (lookup m (to_lower f s)); [discriminate|]. congruence.
Qed.
Ltac wordy_all := repeat (apply Forall_cons; [repeat (apply Forall_cons; [split; [split|]; [discriminate|discriminate|discriminate]|]); apply Forall_nil|]); apply Forall_nil.
Ltac nodup_all := repeat (apply NoDup_cons; [cbn; intros HNC; repeat (destruct HNC as [HNC|HNC]; [discriminate|]); exact HNC|]); apply NoDup_nil.
Lemma column_ok : table_ok column_types. Proof. split; [wordy_all|nodup_all]. Qed.
Lemma attribute_ok : table_ok attribute_types. Proof. split; [wordy_all|nodup_all]. Qed.
Lemma index_ok : table_ok index_types. Proof. split; [wordy_all|nodup_all]. Qed.
(** An ASCII string only has ASCII spellings. *)
Lemma ascii_spells s w : ascii_spelling s w -> spelling s w.
Proof. induction 1; [apply sp_nil|apply sp_case; assumption]. Qed.
Lemma spells_ascii s w : spelling s w -> Forall (fun c => c < 128) s -> ascii_spelling s w.
Proof.
  induction 1 as [|c w s v Hc Hs IH|s v Hs IH]; intros HF; [constructor|inversion HF; subst; apply Forall2_cons; [exact Hc|apply IH; assumption]|].
  inversion HF as [|? ? HC _]. discriminate HC.
Qed.
Lemma spelling_fun s w w' : wordy w -> wordy w' -> spelling s w -> spelling s w' -> w = w'.
Proof.
  intros H H' Hs. revert w' H'. induction Hs as [|c x s v Hc Hs IH|s v Hs IH]; intros w' H' Hs'; inversion Hs' as [|c' x' s' v' Hc' Hs2|s' v' Hs2]; subst.
  - reflexivity.
  - inversion H as [|? ? [Hx _] Hv]; subst. inversion H' as [|? ? [Hx' _] Hv']; subst. f_equal; [destruct Hc as [|[? ?]], Hc' as [|[? ?]]; lia|]. apply IH; assumption.
  - inversion H as [|? ? [Hx _] Hv]; subst. destruct Hc as [|[? ?]]; lia.
  - inversion H' as [|? ? [Hx _] Hv]; subst. destruct Hc' as [|[? ?]]; lia.
  - inversion H; inversion H'; subst. f_equal. apply IH; assumption.
Qed.

(** The conversions read and write UTF-8. *)
From Verif Require Import Str Utf8Spec Utf8.
Local Open Scope N_scope.

Ltac bcase := repeat match goal with
  | |- context [?a <? ?b] => destruct (N.ltb_spec a b)
  | |- context [?a <=? ?b] => destruct (N.leb_spec a b)
  | |- context [?a =? ?b] => destruct (N.eqb_spec a b)
  | H : context [?a <? ?b] |- _ => destruct (N.ltb_spec a b)
  | H : context [?a <=? ?b] |- _ => destruct (N.leb_spec a b)
  | H : context [?a =? ?b] |- _ => destruct (N.eqb_spec a b)
  end.

Lemma encode_utf8 r : scalar r -> encode1 r = utf8 r.
Proof. unfold scalar, encode1, utf8. intros H. bcase; cbn; try reflexivity; lia. Qed.
Lemma encode_valid r : exists r', scalar r' /\ encode1 r = utf8 r'.
Proof.
  destruct ((1114111 <? r) || ((55296 <=? r) && (r <=? 57343))) eqn:E.
  - exists 65533. split; [right; lia|]. unfold encode1. rewrite E. assert (55296 <= r).
    { apply orb_prop in E as [E|E]; [apply N.ltb_lt in E; lia|]. apply andb_prop in E as [E1 E2]. apply N.leb_le in E1. exact E1. }
    destruct (N.ltb_spec r 128); [lia|]. destruct (N.ltb_spec r 2048); [lia|]. reflexivity.
  - exists r. assert (H : scalar r). { unfold scalar. apply orb_false_iff in E as [E1 E2]. apply N.ltb_ge in E1. apply andb_false_iff in E2 as [E2|E2]; apply N.leb_gt in E2; lia. }
    split; [exact H|apply encode_utf8; exact H].
Qed.

Lemma mod_low k m a : a < m -> (k * m + a) mod m = a.
Proof. intros H. rewrite N.add_comm, N.mod_add by lia. apply N.mod_small; exact H. Qed.
Lemma div_low k m a : a < m -> (k * m + a) / m = k.
Proof. intros H. rewrite N.add_comm, N.div_add by lia. rewrite N.div_small by exact H. reflexivity. Qed.
(** The digits of a code point in base 64. *)
Lemma split2 r : exists q m, r = q * 64 + m /\ m < 64.
Proof. exists (r / 64), (r mod 64). split; [rewrite N.mul_comm; apply N.div_mod; lia|apply N.mod_lt; lia]. Qed.
Lemma utf8_1 r : r < 128 -> utf8 r = [r].
Proof. intros H. unfold utf8. destruct (N.ltb_spec r 128); [reflexivity|lia]. Qed.
Lemma utf8_2 q m : m < 64 -> 2 <= q < 32 -> utf8 (q * 64 + m) = [192 + q; 128 + m].
Proof.
  intros Hm Hq. unfold utf8. destruct (N.ltb_spec (q * 64 + m) 128); [lia|]. destruct (N.ltb_spec (q * 64 + m) 2048); [|lia].
  rewrite div_low, mod_low by exact Hm. reflexivity.
Qed.
Lemma utf8_3 p q m : m < 64 -> q < 64 -> p < 16 -> 32 <= p * 64 + q -> utf8 ((p * 64 + q) * 64 + m) = [224 + p; 128 + q; 128 + m].
Proof.
  intros Hm Hq Hp Hl. unfold utf8. set (r := (p * 64 + q) * 64 + m).
  destruct (N.ltb_spec r 128); [lia|]. destruct (N.ltb_spec r 2048); [lia|]. destruct (N.ltb_spec r 65536); [|lia].
  unfold r. rewrite div_low by exact Hm. rewrite !mod_low by lia.
  replace ((p * 64 + q) * 64 + m) with (p * 4096 + (q * 64 + m)) by lia. rewrite div_low by lia. reflexivity.
Qed.
Lemma utf8_4 o p q m : m < 64 -> q < 64 -> p < 64 -> 16 <= o * 64 + p ->
  utf8 (((o * 64 + p) * 64 + q) * 64 + m) = [240 + o; 128 + p; 128 + q; 128 + m].
Proof.
  intros Hm Hq Hp Hl. unfold utf8. set (r := ((o * 64 + p) * 64 + q) * 64 + m).
  destruct (N.ltb_spec r 128); [lia|]. destruct (N.ltb_spec r 2048); [lia|]. destruct (N.ltb_spec r 65536); [lia|].
  unfold r. rewrite div_low by exact Hm. rewrite !mod_low by lia.
  replace (((o * 64 + p) * 64 + q) * 64 + m) with ((o * 64 + p) * 4096 + (q * 64 + m)) by lia. rewrite (div_low _ 4096) by lia. rewrite !mod_low by lia.
  replace ((o * 64 + p) * 4096 + (q * 64 + m)) with (o * 262144 + (p * 4096 + q * 64 + m)) by lia. rewrite div_low by lia. reflexivity.
Qed.
(** Every scalar value has one of the four forms. *)
Lemma utf8_forms r : scalar r ->
  r < 128 \/ (exists q m, r = q * 64 + m /\ m < 64 /\ 2 <= q < 32) \/
  (exists p q m, r = (p * 64 + q) * 64 + m /\ m < 64 /\ q < 64 /\ p < 16 /\ 32 <= p * 64 + q /\ (p <> 13 \/ q < 32)) \/
  (exists o p q m, r = ((o * 64 + p) * 64 + q) * 64 + m /\ m < 64 /\ q < 64 /\ p < 64 /\ 16 <= o * 64 + p < 272).
Proof.
  unfold scalar. intros H. destruct (N.ltb_spec r 128); [left; assumption|right].
  destruct (split2 r) as (a & m & -> & Hm). destruct (N.ltb_spec a 32); [left; exists a, m; lia|right].
  destruct (split2 a) as (b & q & -> & Hq). destruct (N.ltb_spec b 16); [left; exists b, q, m; lia|right].
  destruct (split2 b) as (o & p & -> & Hp). exists o, p, q, m. lia.
Qed.
Lemma cont_yes lo hi b : lo <= b -> b <= hi -> cont lo hi b = true.
Proof. intros H1 H2. unfold cont. apply andb_true_intro. split; apply N.leb_le; assumption. Qed.
Lemma cont_no lo hi b : b < lo \/ hi < b -> cont lo hi b = false.
Proof. intros H. unfold cont. apply andb_false_iff. rewrite !N.leb_gt. exact H. Qed.
Lemma cont_true lo hi b : cont lo hi b = true -> lo <= b /\ b <= hi.
Proof. unfold cont. intros H. apply andb_prop in H as [H1 H2]. split; apply N.leb_le; assumption. Qed.

Lemma decode_utf8 r t : scalar r -> decode1 (utf8 r ++ t) = Some (r, t).
Proof.
  intros H. apply utf8_forms in H as [H|[(q & m & -> & Hm & Hq)|[(p & q & m & -> & Hm & Hq & Hp & Hl & Hs)|(o & p & q & m & -> & Hm & Hq & Hp & Hl)]]].
  - rewrite utf8_1 by exact H. cbn [app decode1]. destruct (N.ltb_spec r 128); [reflexivity|lia].
  - rewrite utf8_2 by assumption. cbn [app decode1]. destruct (N.ltb_spec (192 + q) 128); [lia|].
    rewrite !cont_yes by lia. change 192 with (6 * 32). change 128 with (2 * 64). rewrite !mod_low by lia. reflexivity.
  - rewrite utf8_3 by assumption. cbn [app decode1]. destruct (N.ltb_spec (224 + p) 128); [lia|].
    rewrite (cont_no 194) by lia. rewrite (cont_yes 224) by lia. 
    assert (E : cont (if 224 + p =? 224 then 160 else 128) (if 224 + p =? 237 then 159 else 191) (128 + q) = true).
    { apply cont_yes; [destruct (N.eqb_spec (224 + p) 224); lia|destruct (N.eqb_spec (224 + p) 237); lia]. }
    rewrite E, cont_yes by lia. cbn [andb]. change 224 with (14 * 16). change 128 with (2 * 64). rewrite !mod_low by lia. do 2 f_equal. lia.
  - rewrite utf8_4 by (assumption || lia). cbn [app decode1]. destruct (N.ltb_spec (240 + o) 128); [lia|].
    rewrite (cont_no 194) by lia. rewrite (cont_no 224) by lia. rewrite (cont_yes 240) by lia.
    assert (E : cont (if 240 + o =? 240 then 144 else 128) (if 240 + o =? 244 then 143 else 191) (128 + p) = true).
    { apply cont_yes; [destruct (N.eqb_spec (240 + o) 240); lia|destruct (N.eqb_spec (240 + o) 244); lia]. }
    rewrite E, !cont_yes by lia. cbn [andb]. change 240 with (30 * 8). change 128 with (2 * 64). rewrite !mod_low by lia. do 2 f_equal. lia.
Qed.
Lemma sub_add a b : a <= b -> exists d, b = a + d.
Proof. intros H. exists (b - a). lia. Qed.
Lemma some_pair {A B} (x x' : A) (y y' : B) : Some (x, y) = Some (x', y') -> x = x' /\ y = y'.
Proof. intros E; injection E; auto. Qed.
Lemma decode_sound bs c t : decode1 bs = Some (c, t) -> scalar c /\ bs = utf8 c ++ t.
Proof.
  intros H. destruct bs as [|b0 r0]; [discriminate|]. cbn [decode1] in H. destruct (N.ltb_spec b0 128).
  { injection H as <- <-. split; [left; lia|]. rewrite utf8_1 by assumption. reflexivity. }
  destruct (cont 194 223 b0) eqn:E1; [|destruct (cont 224 239 b0) eqn:E2; [|destruct (cont 240 244 b0) eqn:E3; [|discriminate]]].
  - destruct r0 as [|b1 r1]; [discriminate|]. destruct (cont 128 191 b1) eqn:F; [|discriminate]. apply cont_true in E1, F.
    destruct (sub_add 192 b0) as (q & ->); [lia|]. destruct (sub_add 128 b1) as (m & ->); [lia|]. apply some_pair in H as [<- <-].
    replace ((192 + q) mod 32) with q by (symmetry; apply (mod_low 6 32); lia). replace ((128 + m) mod 64) with m by (symmetry; apply (mod_low 2 64); lia).
    split; [left; lia|]. rewrite utf8_2 by lia. reflexivity.
  - destruct r0 as [|b1 [|b2 r2]]; try discriminate.
    match type of H with (if ?x && ?y then _ else _) = _ => destruct x eqn:F1; [|discriminate]; destruct y eqn:F2; [|discriminate] end.
    cbn [andb] in H. apply cont_true in E2, F1, F2.
    assert (B1 : 128 <= b1 <= 191) by (destruct (N.eqb_spec b0 224), (N.eqb_spec b0 237); lia).
    assert (B2 : b0 = 224 -> 160 <= b1) by (intros ->; apply F1). assert (B3 : b0 = 237 -> b1 <= 159) by (intros ->; apply F1). clear F1.
    destruct (sub_add 224 b0) as (p & ->); [lia|]. destruct (sub_add 128 b1) as (q & ->); [lia|]. destruct (sub_add 128 b2) as (m & ->); [lia|].
    apply some_pair in H as [<- <-].
    replace ((224 + p) mod 16) with p by (symmetry; apply (mod_low 14 16); lia). replace ((128 + m) mod 64) with m by (symmetry; apply (mod_low 2 64); lia).
    replace ((128 + q) mod 64) with q by (symmetry; apply (mod_low 2 64); lia).
    replace (p * 4096 + q * 64 + m) with ((p * 64 + q) * 64 + m) by lia. split; [unfold scalar; lia|]. rewrite utf8_3 by lia. reflexivity.
  - destruct r0 as [|b1 [|b2 [|b3 r3]]]; try discriminate.
    match type of H with (if ?x && ?y && ?z then _ else _) = _ => destruct x eqn:F1; [|discriminate]; destruct y eqn:F2; [|discriminate]; destruct z eqn:F3; [|discriminate] end.
    cbn [andb] in H. apply cont_true in E3, F1, F2, F3.
    assert (B1 : 128 <= b1 <= 191) by (destruct (N.eqb_spec b0 240), (N.eqb_spec b0 244); lia).
    assert (B2 : b0 = 240 -> 144 <= b1) by (intros ->; apply F1). assert (B3 : b0 = 244 -> b1 <= 143) by (intros ->; apply F1). clear F1.
    destruct (sub_add 240 b0) as (o & ->); [lia|]. destruct (sub_add 128 b1) as (p & ->); [lia|]. destruct (sub_add 128 b2) as (q & ->); [lia|].
    destruct (sub_add 128 b3) as (m & ->); [lia|]. apply some_pair in H as [<- <-].
    replace ((240 + o) mod 8) with o by (symmetry; apply (mod_low 30 8); lia). replace ((128 + m) mod 64) with m by (symmetry; apply (mod_low 2 64); lia).
    replace ((128 + q) mod 64) with q by (symmetry; apply (mod_low 2 64); lia). replace ((128 + p) mod 64) with p by (symmetry; apply (mod_low 2 64); lia).
    replace (o * 262144 + p * 4096 + q * 64 + m) with (((o * 64 + p) * 64 + q) * 64 + m) by lia. split; [unfold scalar; lia|]. rewrite utf8_4 by lia. reflexivity.
Qed.
Lemma decode_none b bs r t : decode1 (b :: bs) = None -> scalar r -> b :: bs <> utf8 r ++ t.
Proof. intros H Hr E. rewrite E, decode_utf8 in H by exact Hr. discriminate. Qed.
Lemma decode_shorter bs c t : decode1 bs = Some (c, t) -> (length t < length bs)%nat.
Proof.
  intros H. apply decode_sound in H as [_ ->]. rewrite app_length. unfold utf8. bcase; cbn; lia.
Qed.
Lemma utf8_byte r : scalar r -> Forall byte (utf8 r).
Proof.
  unfold byte. intros H. apply utf8_forms in H as [H|[(q & m & -> & Hm & Hq)|[(p & q & m & -> & Hm & Hq & Hp & Hl & Hs)|(o & p & q & m & -> & Hm & Hq & Hp & Hl)]]];
    [rewrite utf8_1 by lia|rewrite utf8_2 by lia|rewrite utf8_3 by lia|rewrite utf8_4 by lia]; repeat constructor; lia.
Qed.
Lemma utf8_cons r : exists b t, utf8 r = b :: t.
Proof. unfold utf8. bcase; eauto. Qed.

Lemma runes_reads_fuel fuel bs : (length bs <= fuel)%nat -> reads bs (runes_fuel fuel bs).
Proof.
  revert bs; induction fuel as [|f IH]; intros [|b bs] HL; cbn [length] in HL; try lia; cbn [runes_fuel]; try constructor.
  destruct (decode1 (b :: bs)) as [[c r]|] eqn:E.
  - pose proof (decode_shorter _ _ _ E) as HS. destruct (decode_sound _ _ _ E) as [Hc Eb]. rewrite Eb.
    apply rd_char; [exact Hc|]. apply IH. cbn [length] in HS; lia.
  - apply rd_bad; [intros r t Hr; eapply decode_none; eassumption|]. apply IH. lia.
Qed.
Lemma runes_reads bs : reads bs (runes bs).
Proof. apply runes_reads_fuel. lia. Qed.
(** Reading is a function. *)
Lemma reads_fun bs rs rs' : reads bs rs -> reads bs rs' -> rs = rs'.
Proof.
  intros H; revert rs'. induction H as [|r bs rs Hr H IH|b bs rs Hb H IH]; intros rs' H'.
  - inversion H' as [|r bs rs Hr H E|]; subst; [reflexivity|]. destruct (utf8_cons r) as (b & t & E'). rewrite E' in E. discriminate.
  - inversion H' as [E|r2 bs2 rs2 Hr2 H2 E|b2 bs2 rs2 Hb2 H2 E]; subst.
    + destruct (utf8_cons r) as (b & t & E'). rewrite E' in E. discriminate.
    + pose proof (decode_utf8 r bs Hr) as D. rewrite <- E, (decode_utf8 r2 bs2 Hr2) in D. injection D as -> ->. f_equal. apply IH; exact H2.
    + destruct (Hb2 r bs Hr). exact E.
  - inversion H' as [E|r2 bs2 rs2 Hr2 H2 E|b2 bs2 rs2 Hb2 H2 E]; subst.
    + destruct (Hb r2 bs2 Hr2). symmetry; exact E.
    + f_equal. apply IH; exact H2.
Qed.
Theorem runes_iff bs rs : runes bs = rs <-> reads bs rs.
Proof.
  split; [intros <-; apply runes_reads|]. intros H. eapply reads_fun; [apply runes_reads|exact H].
Qed.
Lemma reads_scalar bs rs : reads bs rs -> Forall scalar rs.
Proof. induction 1; constructor; auto. right. lia. Qed.
Lemma runes_scalar bs : Forall scalar (runes bs).
Proof. eapply reads_scalar, runes_reads. Qed.

(** Writing. *)
Lemma bytes_of_app a b : bytes_of (a ++ b) = bytes_of a ++ bytes_of b.
Proof. unfold bytes_of. rewrite map_app, concat_app. reflexivity. Qed.
Lemma bytes_of_utf8 rs : Forall scalar rs -> bytes_of rs = concat (map utf8 rs).
Proof.
  unfold bytes_of. induction 1 as [|r rs Hr H IH]; [reflexivity|]. cbn. rewrite IH, encode_utf8 by exact Hr. reflexivity.
Qed.
Lemma bytes_of_valid rs : valid_utf8 (bytes_of rs).
Proof.
  induction rs as [|r rs (q & Hq & E)]; [exists []; split; [constructor|reflexivity]|].
  destruct (encode_valid r) as (r' & Hr & E'). exists (r' :: q). split; [constructor; assumption|].
  unfold bytes_of in *. cbn. rewrite E', E. reflexivity.
Qed.
Lemma valid_byte bs : valid_utf8 bs -> Forall byte bs.
Proof. intros (rs & H & ->). induction H as [|r rs Hr H IH]; [constructor|]. cbn. apply Forall_app. split; [apply utf8_byte; exact Hr|exact IH]. Qed.
Lemma reads_utf8 rs : Forall scalar rs -> reads (concat (map utf8 rs)) rs.
Proof. induction 1; cbn; constructor; assumption. Qed.
Lemma runes_bytes_of rs : Forall scalar rs -> runes (bytes_of rs) = rs.
Proof.
  intros H. rewrite bytes_of_utf8 by exact H. apply runes_iff, reads_utf8, H.
Qed.
Lemma bytes_of_runes bs : bytes_of (runes bs) = bs <-> valid_utf8 bs.
Proof.
  split; [intros <-; apply bytes_of_valid|]. intros (rs & Hr & ->). rewrite <- bytes_of_utf8 by exact Hr.
  rewrite runes_bytes_of by exact Hr. reflexivity.
Qed.
Lemma bytes_of_inj a b : Forall scalar a -> Forall scalar b -> bytes_of a = bytes_of b -> a = b.
Proof. intros Ha Hb E. rewrite <- (runes_bytes_of a Ha), <- (runes_bytes_of b Hb), E. reflexivity. Qed.

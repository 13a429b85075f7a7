(** How long the JSON of a schema is: for C63. *)
From Coq Require Import Lia Bool.
From Verif Require Import Str Schema Utf8Spec Utf8 Utf8Proof JsonSpec GoJson JsonProof LexSpec Grammar Denote.
Local Open Scope nat_scope.

Fixpoint total (l : list nat) : nat := match l with [] => 0 | x :: r => x + total r end.
Lemma total_app a b : total (a ++ b) = total a + total b.
Proof. induction a as [|x a IH]; [reflexivity|]. cbn [app total]. lia. Qed.
Lemma total_map_le {A} (f g : A -> nat) l : (forall a, In a l -> f a <= g a) -> total (map f l) <= total (map g l).
Proof. induction l as [|a l IH]; intros H; [reflexivity|]. cbn [map total]. pose proof (H a (or_introl eq_refl)). pose proof (IH (fun b Hb => H b (or_intror Hb))). lia. Qed.

(** Strings *)
Lemma esc_len bf b : length (esc_ascii bf b) <= 6.
Proof. unfold esc_ascii. repeat match goal with |- context [if ?b then _ else _] => destruct b end; cbn; lia. Qed.
Lemma utf8_len r : 1 <= length (utf8 r) <= 4.
Proof. unfold utf8. repeat match goal with |- context [if ?b then _ else _] => destruct b end; cbn; lia. Qed.
Lemma quoted_len bf f : forall bs, length (quoted bf f bs) <= 6 * length (runes_fuel f bs).
Proof.
  induction f as [|f IH]; intros bs; [cbn; lia|]. destruct bs as [|b r]; [cbn; lia|]. cbn [quoted runes_fuel].
  destruct (N.ltb_spec b 128).
  - assert (E : decode1 (b :: r) = Some (b, r)). { cbn [decode1]. destruct (N.ltb_spec b 128); [reflexivity|lia]. }
    rewrite E, app_length. cbn [length]. pose proof (esc_len bf b). specialize (IH r). lia.
  - destruct (decode1 (b :: r)) as [[c r']|] eqn:E.
    + rewrite app_length. cbn [length]. specialize (IH r'). apply decode_sound in E as (Hs & E). 
      match goal with |- length ?x + _ <= _ => assert (length x <= 6) end; [|lia].
      destruct (_ || _)%bool; [cbn; lia|]. rewrite E, firstn_length, app_length. pose proof (utf8_len c). pose proof (f_equal (@length N) E) as E'. rewrite app_length in E'. cbn [length] in *. lia.
    + rewrite app_length. cbn [length]. specialize (IH r). change (length (lit "\ufffd")) with 6. lia.
Qed.
Lemma quote_len bf bs : length (quote bf bs) <= 6 * length (runes bs) + 2.
Proof. unfold quote. rewrite !app_length. pose proof (quoted_len bf (length bs) bs). unfold runes. cbn [length]. lia. Qed.
Lemma runes_of_bytes_len n : length (runes (bytes_of n)) = length n.
Proof.
  assert (E : exists n', Forall scalar n' /\ bytes_of n = bytes_of n' /\ length n' = length n).
  { induction n as [|r n (n' & H1 & H2 & H3)]; [exists []; repeat split; constructor|]. destruct (encode_valid r) as (r' & Hr & Er).
    exists (r' :: n'). split; [constructor; assumption|]. split; [|cbn; lia]. unfold bytes_of in *. cbn [map concat]. rewrite Er, (encode_utf8 r' Hr), H2. reflexivity. }
  destruct E as (n' & H1 & -> & <-). rewrite runes_bytes_of by exact H1. reflexivity.
Qed.
Lemma quote_bytes_len bf n : length (quote bf (bytes_of n)) <= 6 * length n + 2.
Proof. pose proof (quote_len bf (bytes_of n)). rewrite runes_of_bytes_len in H. exact H. Qed.

(** Blocks *)
Lemma newline_len d : length (newline d) = 2 * d + 1.
Proof. unfold newline. rewrite app_length. cbn [length]. induction d as [|d IH]; [reflexivity|]. cbn [repeat concat]. rewrite app_length. change (length (lit "  ")) with 2. lia. Qed.
Lemma join_len sep l : length (join sep l) <= total (map (fun x => length x + length sep) l).
Proof. induction l as [|x [|y l] IH]; [reflexivity|cbn; lia|]. rewrite join_cons, !app_length. cbn [map total] in *. lia. Qed.
Definition over (d : nat) (x : nat) : nat := x + 2 * d + 4.
Lemma block_len o c d l : length o = 1 -> length c = 1 -> length (block o c d l) <= total (map (fun x => over d (length x)) l) + 2 * d + 2.
Proof.
  intros Ho Hc. destruct l as [|x l]; [cbn; rewrite app_length; lia|]. unfold block. rewrite !app_length, Ho, Hc, !newline_len.
  pose proof (join_len (lit "," ++ newline (S d)) (x :: l)) as H. rewrite app_length, newline_len in H. change (length (lit ",")) with 1 in H. cbn [map total] in *.
  (* the separator is one less than the items *)
  assert (J : length (join (lit "," ++ newline (S d)) (x :: l)) + (1 + (2 * S d + 1)) <= total (map (fun x => over d (length x)) (x :: l))); [|cbn [map total] in J; lia].
  clear. revert x. induction l as [|y l IH]; intros x; [cbn [join map total]; unfold over; lia|]. specialize (IH y). rewrite join_cons, !app_length, newline_len. cbn [map total] in *. unfold over in *. change (length (lit ",")) with 1. lia.
Qed.
Lemma slice_len bf d l : length (pretty bf d (GSlice l)) <= total (map (fun v => over d (length (pretty bf (S d) v))) l) + 2 * d + 2.
Proof.
  cbn [pretty]. etransitivity; [apply block_len; reflexivity|]. rewrite map_map. reflexivity.
Qed.
Definition member_len (bf : bool) (d : nat) (f : str * bool * gval) : nat := over d (length (quote bf (fst (fst f))) + 2 + length (pretty bf (S d) (snd f))).
Lemma struct_len bf d fs : length (pretty bf d (GStruct fs)) <= total (map (member_len bf d) fs) + 2 * d + 2.
Proof.
  rewrite pretty_struct. etransitivity; [apply block_len; reflexivity|]. apply Nat.add_le_mono_r, Nat.add_le_mono_r. rewrite map_map.
  induction fs as [|[[n oe] v] fs IH]; [reflexivity|]. cbn [written flat_map map total]. fold (written fs). unfold member_len at 1. cbn [fst snd].
  assert (E : total (map (fun x : str * gval => over d (length (quote bf (fst x) ++ lit ": " ++ pretty bf (S d) (snd x)))) (written fs)) <= total (map (member_len bf d) fs)) by exact IH.
  destruct (oe && is_empty v)%bool; cbn [app map total]; [lia|]. cbn [fst snd]. rewrite !app_length. change (length (lit ": ")) with 2. unfold over in *. lia.
Qed.

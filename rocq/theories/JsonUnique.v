(** A JSON text has one value; a node's document determines the node. *)
From Verif Require Import Str Schema Utf8Spec Utf8 Utf8Proof JsonSpec.
Local Open Scope N_scope.

(** ** Strings *)
Lemma hexval_fun c v v' : hexval c v -> hexval c v' -> v = v'.
Proof. unfold hexval. lia. Qed.
Lemma unit16_fun n t n' t' r r' : unit16 n t -> unit16 n' t' -> t ++ r = t' ++ r' -> n = n' /\ t = t' /\ r = r'.
Proof.
  intros H H' E. inversion H; inversion H'; subst. cbn in E. injection E as -> -> -> -> ->.
  repeat match goal with H1 : hexval ?c ?v, H2 : hexval ?c ?w |- _ => pose proof (hexval_fun _ _ _ H1 H2); subst; clear H2 end. auto.
Qed.
Lemma unit16_head n t : unit16 n t -> exists u, t = 92 :: 117 :: u.
Proof. intros H. inversion H. eauto. Qed.
Lemma jchar_fun c t c' t' r r' : jchar c t -> jchar c' t' -> t ++ r = t' ++ r' -> c = c' /\ t = t' /\ r = r'.
Proof.
  intros H H' E.
  destruct H as [c Hc1 Hc2 Hc3 Hc4| | | | | | | | |c t Hu Hc|h l t u Hh Hl Bh Bl];
    destruct H' as [c' Hc1' Hc2' Hc3' Hc4'| | | | | | | | |c' t' Hu' Hc'|h' l' t' u' Hh' Hl' Bh' Bl'];
    try (destruct (unit16_head _ _ Hu) as [? Eu]); try (destruct (unit16_head _ _ Hh) as [? Eh]);
    try (destruct (unit16_head _ _ Hu') as [? Eu']); try (destruct (unit16_head _ _ Hh') as [? Eh']);
    try (subst; cbn [app] in E; inversion E; subst; try (exfalso; congruence); auto; fail).
  - apply (unit16_fun _ _ _ _ _ _ Hu Hu' E).
  - rewrite <- app_assoc in E. destruct (unit16_fun _ _ _ _ _ _ Hu Hh' E) as (-> & _ & _). exfalso. unfold scalar in Hc. lia.
  - rewrite <- app_assoc in E. destruct (unit16_fun _ _ _ _ _ _ Hh Hu' E) as (-> & _ & _). exfalso. unfold scalar in Hc'. lia.
  - rewrite <- !app_assoc in E. destruct (unit16_fun _ _ _ _ _ _ Hh Hh' E) as (-> & -> & E1).
    destruct (unit16_fun _ _ _ _ _ _ Hl Hl' E1) as (-> & -> & ->). auto.
Qed.
Lemma jchar_head c t : jchar c t -> exists x u, t = x :: u /\ x <> 34.
Proof.
  intros H. destruct H as [c Hc1 Hc2 Hc3 Hc4| | | | | | | | |c t Hu Hc|h l t u Hh Hl Bh Bl]; try (eexists _, _; split; [reflexivity|discriminate]).
  - eexists _, _. split; [reflexivity|exact Hc3].
  - destruct (unit16_head _ _ Hu) as [? ->]. eexists _, _. split; [reflexivity|discriminate].
  - destruct (unit16_head _ _ Hh) as [? ->]. eexists _, _. split; [reflexivity|discriminate].
Qed.
Lemma jchars_fun s u : jchars s u -> forall s' u' r r', jchars s' u' -> u ++ 34 :: r = u' ++ 34 :: r' -> s = s' /\ u = u' /\ r = r'.
Proof.
  induction 1 as [|c t s u Hc H IH]; intros s' u' r r' H' E; destruct H' as [|c' t' s' u' Hc' H'].
  - injection E as ->. auto.
  - destruct (jchar_head _ _ Hc') as (x & v & -> & Hx). injection E as E _. congruence.
  - destruct (jchar_head _ _ Hc) as (x & v & -> & Hx). injection E as E _. congruence.
  - rewrite <- !app_assoc in E. destruct (jchar_fun _ _ _ _ _ _ Hc Hc' E) as (-> & -> & E1).
    destruct (IH _ _ _ _ H' E1) as (-> & -> & ->). auto.
Qed.
Lemma jstring_fun s t s' t' r r' : jstring s t -> jstring s' t' -> t ++ r = t' ++ r' -> s = s' /\ t = t' /\ r = r'.
Proof.
  intros (u & -> & H) (u' & -> & H') E. rewrite <- !app_assoc in E. cbn [app] in E. injection E as E.
  destruct (jchars_fun _ _ H _ _ _ _ H' E) as (-> & -> & ->). auto.
Qed.

(** ** Numbers *)
Definition numchar (c : N) : Prop := 48 <= c <= 57 \/ In c [43; 45; 46; 69; 101].
Lemma digits_num t : digits1 t -> Forall numchar t.
Proof. intros [_ H]. eapply Forall_impl; [|exact H]. intros c Hc. left; exact Hc. Qed.
Lemma numchar_in c : In c [43; 45; 46; 69; 101] -> numchar c.
Proof. intros H; right; exact H. Qed.
Lemma jnumber_chars t : jnumber t -> Forall numchar t /\ exists c u, t = c :: u /\ (c = 45 \/ 48 <= c <= 57).
Proof.
  intros (sg & int & fr & ex & -> & Hs & Hi & Hf & He). split.
  - repeat (apply Forall_app; split).
    + destruct Hs as [->| ->]; [apply Forall_nil|]. apply Forall_cons; [apply numchar_in; cbn; auto|apply Forall_nil].
    + destruct Hi as [->|[Hi _]]; [constructor; [left; lia|constructor]|apply digits_num; exact Hi].
    + destruct Hf as [->|(d & -> & Hd)]; [constructor|]. constructor; [apply numchar_in; cbn; auto|apply digits_num; exact Hd].
    + destruct He as [->|(e & s & d & -> & He & Hsg & Hd)]; [constructor|]. constructor; [apply numchar_in; cbn in *; intuition|].
      apply Forall_app. split; [|apply digits_num; exact Hd].
      destruct Hsg as [->|[->| ->]]; [apply Forall_nil| |]; (apply Forall_cons; [apply numchar_in; cbn; auto|apply Forall_nil]).
  - destruct Hs as [->| ->]; [|eexists _, _; split; [reflexivity|auto]]. cbn [app].
    destruct Hi as [->|[[Hn Hi] _]]; [eexists _, _; split; [reflexivity|right; lia]|]. destruct int as [|c int]; [destruct (Hn eq_refl)|].
    eexists _, _; split; [reflexivity|]. right. inversion Hi; assumption.
Qed.
(** What may follow a value. *)
Definition stop (r : list N) : Prop := match r with [] => True | c :: _ => In c [32; 9; 10; 13; 44; 93; 125] end.
Lemma stop_num c r : stop (c :: r) -> ~ numchar c.
Proof. cbn. unfold numchar. cbn. lia. Qed.
Lemma num_fun t : Forall numchar t -> forall t' r r', Forall numchar t' -> stop r -> stop r' -> t ++ r = t' ++ r' -> t = t' /\ r = r'.
Proof.
  induction 1 as [|c t Hc H IH]; intros t' r r' H' S S' E; destruct H' as [|c' t' Hc' H'].
  - auto.
  - cbn in E. subst r. exfalso. exact (stop_num _ _ S Hc').
  - cbn in E. subst r'. exfalso. exact (stop_num _ _ S' Hc).
  - injection E as -> E. destruct (IH _ _ _ H' S S' E) as [-> ->]. auto.
Qed.

(** ** White space *)
Definition solid (t : list N) : Prop := match t with [] => True | c :: _ => ~ In c [32; 9; 10; 13] end.
Lemma ws_fun a a' x x' : ws a -> ws a' -> solid x -> solid x' -> a ++ x = a' ++ x' -> a = a' /\ x = x'.
Proof.
  intros H; revert a'. induction H as [|c a Hc H IH]; intros a' H' Sx Sx' E; destruct H' as [|c' a' Hc' H'].
  - auto.
  - cbn in E. subst x. exfalso. exact (Sx Hc').
  - cbn in E. subst x'. exfalso. exact (Sx' Hc).
  - injection E as -> E. destruct (IH _ H' Sx Sx' E) as [-> ->]. auto.
Qed.
Lemma ws_stop a c r : ws a -> In c [44; 93; 125] -> stop (a ++ c :: r).
Proof. intros H Hc. destruct H as [|x a Hx H]; cbn in *; intuition. Qed.
Lemma ws_stop_end a : ws a -> stop a.
Proof. intros H. destruct H as [|x a Hx H]; cbn in *; intuition. Qed.

(** ** Values *)
Scheme jvalue_rec_ := Induction for jvalue Sort Prop
  with jelements_rec_ := Induction for jelements Sort Prop
  with jmembers_rec_ := Induction for jmembers Sort Prop.
Combined Scheme json_ind_ from jvalue_rec_, jelements_rec_, jmembers_rec_.

(** The first character of a value. *)
Lemma value_head v t : jvalue v t -> exists c u, t = c :: u /\
  match v with JNull => c = 110 | JBool true => c = 116 | JBool false => c = 102 | JNum _ => c = 45 \/ 48 <= c <= 57
             | JStr _ => c = 34 | JArr _ => c = 91 | JObj _ => c = 123 end.
Proof.
  intros H. destruct H as [| | |t H|s t H|w H|l t H|w H|l t H]; try (eexists _, _; split; [reflexivity|reflexivity]).
  - apply jnumber_chars in H as (_ & c & u & -> & Hc). eauto.
  - destruct H as (u & -> & _). eexists _, _. split; reflexivity.
Qed.
Lemma value_solid v t r : jvalue v t -> solid (t ++ r).
Proof.
  intros H. apply value_head in H as (c & u & -> & Hc). cbn. destruct v as [|[]| | | |]; lia.
Qed.
Lemma value_not v t c r r' : jvalue v t -> In c [44; 58; 93; 125] -> t ++ r = c :: r' -> False.
Proof.
  intros H Hc E. apply value_head in H as (x & u & -> & Hx). injection E as -> E. cbn in Hc. destruct v as [|[]| | | |]; lia.
Qed.
Lemma string_solid s t r : jstring s t -> solid (t ++ r).
Proof. intros (u & -> & _). cbn. lia. Qed.
Lemma solid_cons c r : ~ In c [32; 9; 10; 13] -> solid (c :: r).
Proof. auto. Qed.
Lemma app_one {A} (a : A) (r : list A) : [a] ++ r = a :: r. Proof. reflexivity. Qed.

(** One step through an element: white space, value, white space. *)
Lemma element_step v t (IH : forall v' t' r r', jvalue v' t' -> t ++ r = t' ++ r' -> stop r -> stop r' -> v = v' /\ t = t' /\ r = r')
  a b v' t' a' b' x x' : jvalue v t -> ws a -> ws b -> jvalue v' t' -> ws a' -> ws b' -> solid x -> solid x' ->
  stop (b ++ x) -> stop (b' ++ x') -> a ++ t ++ b ++ x = a' ++ t' ++ b' ++ x' -> v = v' /\ a = a' /\ t = t' /\ b = b' /\ x = x'.
Proof.
  intros Hv Ha Hb Hv' Ha' Hb' Sx Sx' S S' E.
  apply ws_fun in E as [-> E]; [|assumption|assumption|eapply value_solid; eassumption|eapply value_solid; eassumption].
  destruct (IH _ _ _ _ Hv' E S S') as (-> & -> & E1). apply ws_fun in E1 as [-> ->]; auto.
Qed.

Definition kind (v : json) : nat :=
  match v with JNull => 0 | JBool true => 1 | JBool false => 2 | JNum _ => 3 | JStr _ => 4 | JArr _ => 5 | JObj _ => 6 end.
Lemma heads_kind v t v' t' r r' : jvalue v t -> jvalue v' t' -> t ++ r = t' ++ r' -> kind v = kind v'.
Proof.
  intros H H' E. apply value_head in H as (c & u & -> & Hc). apply value_head in H' as (c' & u' & -> & Hc'). injection E as -> _.
  destruct v as [|[]| | | |], v' as [|[]| | | |]; cbn; try reflexivity; lia.
Qed.
Lemma array_inv l t : jvalue (JArr l) t -> (l = [] /\ exists w, ws w /\ t = 91 :: w ++ [93]) \/ (exists u, jelements l u /\ t = 91 :: u ++ [93]).
Proof. intros H. inversion H; subst; [left|right]; eauto. Qed.
Lemma object_inv l t : jvalue (JObj l) t -> (l = [] /\ exists w, ws w /\ t = 123 :: w ++ [125]) \/ (exists u, jmembers l u /\ t = 123 :: u ++ [125]).
Proof. intros H. inversion H; subst; [left|right]; eauto. Qed.
Lemma num_inv n t : jvalue (JNum n) t -> jnumber t /\ n = t.
Proof. intros H. inversion H; subst; auto. Qed.
Lemma str_inv s t : jvalue (JStr s) t -> jstring s t.
Proof. intros H. inversion H; subst; auto. Qed.
Lemma elements_head l u : jelements l u -> exists a v t x, u = a ++ t ++ x /\ ws a /\ jvalue v t.
Proof. intros H. destruct H; eauto 9. Qed.
Lemma members_head l u : jmembers l u -> exists a k p x, u = a ++ p ++ x /\ ws a /\ jstring k p.
Proof. intros H. destruct H; eauto 9. Qed.
Lemma not_empty_arr w l u r r' : ws w -> jelements l u -> w ++ 93 :: r = u ++ r' -> False.
Proof.
  intros Hw H E. apply elements_head in H as (a & v & t & x & -> & Ha & Hv). rewrite <- !app_assoc in E.
  apply ws_fun in E as [_ E]; [|assumption|assumption|cbn; lia|eapply value_solid; exact Hv].
  symmetry in E. eapply value_not; [exact Hv| |exact E]. cbn; auto.
Qed.
Lemma not_empty_obj w l u r r' : ws w -> jmembers l u -> w ++ 125 :: r = u ++ r' -> False.
Proof.
  intros Hw H E. apply members_head in H as (a & v & t & x & -> & Ha & Hv). rewrite <- !app_assoc in E.
  apply ws_fun in E as [_ E]; [|assumption|assumption|cbn; lia|eapply string_solid; exact Hv].
  destruct Hv as (q & -> & _). discriminate.
Qed.
Lemma ws_end a a' c r r' : ws a -> ws a' -> In c [44; 58; 93; 125] -> a ++ c :: r = a' ++ c :: r' -> a = a' /\ r = r'.
Proof.
  intros H H' Hc E. apply ws_fun in E as [-> E]; [injection E as ->; auto|assumption|assumption| |]; cbn in *; lia.
Qed.

Theorem json_fun :
  (forall v t, jvalue v t -> forall v' t' r r', jvalue v' t' -> t ++ r = t' ++ r' -> stop r -> stop r' -> v = v' /\ t = t' /\ r = r') /\
  (forall l t, jelements l t -> forall l' t' r r', jelements l' t' -> t ++ 93 :: r = t' ++ 93 :: r' -> l = l' /\ t = t' /\ r = r') /\
  (forall l t, jmembers l t -> forall l' t' r r', jmembers l' t' -> t ++ 125 :: r = t' ++ 125 :: r' -> l = l' /\ t = t' /\ r = r').
Proof.
  apply (json_ind_
    (fun v t _ => forall v' t' r r', jvalue v' t' -> t ++ r = t' ++ r' -> stop r -> stop r' -> v = v' /\ t = t' /\ r = r')
    (fun l t _ => forall l' t' r r', jelements l' t' -> t ++ 93 :: r = t' ++ 93 :: r' -> l = l' /\ t = t' /\ r = r')
    (fun l t _ => forall l' t' r r', jmembers l' t' -> t ++ 125 :: r = t' ++ 125 :: r' -> l = l' /\ t = t' /\ r = r')).
  - intros v' t' r r' H' E S S'. pose proof (heads_kind _ _ _ _ _ _ jv_null H' E) as K. destruct v' as [|[]| | | |]; try discriminate K.
    inversion H'; subst. apply app_inv_head in E. auto.
  - intros v' t' r r' H' E S S'. pose proof (heads_kind _ _ _ _ _ _ jv_true H' E) as K. destruct v' as [|[]| | | |]; try discriminate K.
    inversion H'; subst. apply app_inv_head in E. auto.
  - intros v' t' r r' H' E S S'. pose proof (heads_kind _ _ _ _ _ _ jv_false H' E) as K. destruct v' as [|[]| | | |]; try discriminate K.
    inversion H'; subst. apply app_inv_head in E. auto.
  - intros t H v' t' r r' H' E S S'. pose proof (heads_kind _ _ _ _ _ _ (jv_num _ H) H' E) as K. destruct v' as [|[]| | | |]; try discriminate K.
    apply num_inv in H' as [H' ->]. apply jnumber_chars in H as [H _]. apply jnumber_chars in H' as [H' _].
    destruct (num_fun _ H _ _ _ H' S S' E) as [-> ->]. auto.
  - intros s t H v' t' r r' H' E S S'. pose proof (heads_kind _ _ _ _ _ _ (jv_str _ _ H) H' E) as K. destruct v' as [|[]| | | |]; try discriminate K.
    apply str_inv in H'. destruct (jstring_fun _ _ _ _ _ _ H H' E) as (-> & -> & ->). auto.
  - intros w Hw v' t' r r' H' E S S'. pose proof (heads_kind _ _ _ _ _ _ (jv_arr0 _ Hw) H' E) as K. destruct v' as [|[]| | | |]; try discriminate K.
    change (lit "[" ++ w ++ lit "]") with (91 :: w ++ [93]) in *.
    apply array_inv in H' as [(-> & w' & Hw' & ->)|(u & Hu & ->)]; cbn [app] in E; injection E as E; rewrite <- !app_assoc in E; cbn [app] in E.
    + apply ws_end in E as [-> ->]; auto. cbn; auto.
    + exfalso. eapply not_empty_arr; [exact Hw|exact Hu|exact E].
  - intros l t H IH v' t' r r' H' E S S'. pose proof (heads_kind _ _ _ _ _ _ (jv_arr _ _ H) H' E) as K. destruct v' as [|[]| | | |]; try discriminate K.
    change (lit "[" ++ t ++ lit "]") with (91 :: t ++ [93]) in *.
    apply array_inv in H' as [(-> & w' & Hw' & ->)|(u & Hu & ->)]; cbn [app] in E; injection E as E; rewrite <- !app_assoc in E; cbn [app] in E.
    + exfalso. symmetry in E. eapply not_empty_arr; [exact Hw'|exact H|exact E].
    + destruct (IH _ _ _ _ Hu E) as (-> & -> & ->). auto.
  - intros w Hw v' t' r r' H' E S S'. pose proof (heads_kind _ _ _ _ _ _ (jv_obj0 _ Hw) H' E) as K. destruct v' as [|[]| | | |]; try discriminate K.
    change (lit "{" ++ w ++ lit "}") with (123 :: w ++ [125]) in *.
    apply object_inv in H' as [(-> & w' & Hw' & ->)|(u & Hu & ->)]; cbn [app] in E; injection E as E; rewrite <- !app_assoc in E; cbn [app] in E.
    + apply ws_end in E as [-> ->]; auto. cbn; auto.
    + exfalso. eapply not_empty_obj; [exact Hw|exact Hu|exact E].
  - intros l t H IH v' t' r r' H' E S S'. pose proof (heads_kind _ _ _ _ _ _ (jv_obj _ _ H) H' E) as K. destruct v' as [|[]| | | |]; try discriminate K.
    change (lit "{" ++ t ++ lit "}") with (123 :: t ++ [125]) in *.
    apply object_inv in H' as [(-> & w' & Hw' & ->)|(u & Hu & ->)]; cbn [app] in E; injection E as E; rewrite <- !app_assoc in E; cbn [app] in E.
    + exfalso. symmetry in E. eapply not_empty_obj; [exact Hw'|exact H|exact E].
    + destruct (IH _ _ _ _ Hu E) as (-> & -> & ->). auto.
  - (* je_one *)
    intros v t a b Ha Hv IH Hb l' t' r r' H' E. destruct H' as [v' t' a' b' Ha' Hv' Hb'|v' t' a' b' l' u' Ha' Hv' Hb' H'];
      change (lit ",") with [44] in *; rewrite <- !app_assoc in E; cbn [app] in E;
      (eapply (element_step v t IH) in E; [|exact Hv|exact Ha|exact Hb|exact Hv'|exact Ha'|exact Hb'|cbn; lia|cbn; lia
        |apply ws_stop; [assumption|cbn; auto]|apply ws_stop; [assumption|cbn; auto]]).
    + destruct E as (-> & -> & -> & -> & E). injection E as ->. auto.
    + destruct E as (_ & _ & _ & _ & E). discriminate.
  - intros v t a b l u Ha Hv IH Hb H IHl l' t' r r' H' E. destruct H' as [v' t' a' b' Ha' Hv' Hb'|v' t' a' b' l' u' Ha' Hv' Hb' H'];
      change (lit ",") with [44] in *; rewrite <- !app_assoc in E; cbn [app] in E;
      (eapply (element_step v t IH) in E; [|exact Hv|exact Ha|exact Hb|exact Hv'|exact Ha'|exact Hb'|cbn; lia|cbn; lia
        |apply ws_stop; [assumption|cbn; auto]|apply ws_stop; [assumption|cbn; auto]]).
    + destruct E as (_ & _ & _ & _ & E). discriminate.
    + destruct E as (-> & -> & -> & -> & E). injection E as E. destruct (IHl _ _ _ _ H' E) as (-> & -> & ->). auto.
  - (* jm_one *)
    intros k p v t a b c d Ha Hk Hb Hc Hv IH Hd l' t' r r' H' E.
    destruct H' as [k' p' v' t' a' b' c' d' Ha' Hk' Hb' Hc' Hv' Hd'|k' p' v' t' a' b' c' d' l' u' Ha' Hk' Hb' Hc' Hv' Hd' H'];
      change (lit ",") with [44] in *; change (lit ":") with [58] in *; rewrite <- !app_assoc in E; cbn [app] in E;
      (apply ws_fun in E as [-> E]; [|assumption|assumption|eapply string_solid; eassumption|eapply string_solid; eassumption]);
      destruct (jstring_fun _ _ _ _ _ _ Hk Hk' E) as (-> & -> & E1); clear E;
      (apply ws_end in E1 as [-> E]; [|assumption|assumption|cbn; auto]);
      (eapply (element_step v t IH) in E; [|exact Hv|exact Hc|exact Hd|exact Hv'|exact Hc'|exact Hd'|cbn; lia|cbn; lia
        |apply ws_stop; [assumption|cbn; auto]|apply ws_stop; [assumption|cbn; auto]]).
    + destruct E as (-> & -> & -> & -> & E). injection E as ->. auto.
    + destruct E as (_ & _ & _ & _ & E). discriminate.
  - intros k p v t a b c d l u Ha Hk Hb Hc Hv IH Hd H IHl l' t' r r' H' E.
    destruct H' as [k' p' v' t' a' b' c' d' Ha' Hk' Hb' Hc' Hv' Hd'|k' p' v' t' a' b' c' d' l' u' Ha' Hk' Hb' Hc' Hv' Hd' H'];
      change (lit ",") with [44] in *; change (lit ":") with [58] in *; rewrite <- !app_assoc in E; cbn [app] in E;
      (apply ws_fun in E as [-> E]; [|assumption|assumption|eapply string_solid; eassumption|eapply string_solid; eassumption]);
      destruct (jstring_fun _ _ _ _ _ _ Hk Hk' E) as (-> & -> & E1); clear E;
      (apply ws_end in E1 as [-> E]; [|assumption|assumption|cbn; auto]);
      (eapply (element_step v t IH) in E; [|exact Hv|exact Hc|exact Hd|exact Hv'|exact Hc'|exact Hd'|cbn; lia|cbn; lia
        |apply ws_stop; [assumption|cbn; auto]|apply ws_stop; [assumption|cbn; auto]]).
    + destruct E as (_ & _ & _ & _ & E). discriminate.
    + destruct E as (-> & -> & -> & -> & E). injection E as E. destruct (IHl _ _ _ _ H' E) as (-> & -> & ->). auto.
Qed.
Theorem json_text_fun v v' text : json_text v text -> json_text v' text -> v = v'.
Proof.
  intros (a & t & b & -> & Ha & Hv & Hb) (a' & t' & b' & E & Ha' & Hv' & Hb').
  apply ws_fun in E as [_ E]; [|assumption|assumption|eapply value_solid; eassumption|eapply value_solid; eassumption].
  apply (proj1 json_fun _ _ Hv _ _ _ _ Hv' E); apply ws_stop_end; assumption.
Qed.

(** ** Documents determine nodes *)
Lemma map_inj {A B} (f : A -> B) (R : A -> A -> Prop) l l' : (forall a a', f a = f a' -> R a a') -> map f l = map f l' -> Forall2 R l l'.
Proof.
  intros Hf; revert l'. induction l as [|a l IH]; intros [|a' l'] E; try discriminate; constructor; cbn in E; injection E as E1 E2; auto.
Qed.
Lemma Forall2_eq {A} (l l' : list A) : Forall2 eq l l' -> l = l'.
Proof. induction 1; congruence. Qed.
Lemma always_inj {A} n (d : A -> json) s s' : (forall a a', d a = d a' -> a = a') -> always n d s = always n d s' -> s = s'.
Proof.
  intros Hd E. unfold always in E. injection E as E. destruct s as [l|], s' as [l'|]; try discriminate; [|reflexivity].
  injection E as E. f_equal. apply Forall2_eq. eapply map_inj; [|exact E]. exact Hd.
Qed.
(** A member list is told apart from what follows it by its name. *)
Definition not_named (n : string) (m : list (str * json)) : Prop := ~ In (lit n) (map fst m).
Lemma optional_inj {A} n (d : A -> json) (R : A -> A -> Prop) s s' m m' : (forall a a', d a = d a' -> R a a') ->
  not_named n m -> not_named n m' -> optional n d s ++ m = optional n d s' ++ m' -> loosely R s s' /\ m = m'.
Proof.
  intros Hd Hm Hm' E. unfold loosely.
  assert (C : forall s, (elems s = [] /\ optional n d s = []) \/ (elems s <> [] /\ optional n d s = [(lit n, JArr (map d (elems s)))])).
  { intros [[|a l]|]; [left|right|left]; cbn; auto. split; [discriminate|reflexivity]. }
  destruct (C s) as [[E1 O]|[N1 O]], (C s') as [[E1' O']|[N1' O']]; rewrite O, O' in E; cbn [app] in E.
  - rewrite E1, E1'. split; [constructor|exact E].
  - exfalso. apply Hm. rewrite E. left. reflexivity.
  - exfalso. apply Hm'. rewrite <- E. left. reflexivity.
  - injection E as E ->. split; [|reflexivity]. eapply map_inj; [exact Hd|exact E].
Qed.
Lemma jstr_inj a a' : JStr a = JStr a' -> a = a'. Proof. congruence. Qed.
Lemma text_inj n s s' m m' : text_member n s ++ m = text_member n s' ++ m' -> s = s' /\ m = m'.
Proof. unfold text_member. cbn [app]. intros E. injection E as -> ->. auto. Qed.
Lemma always_app n {A} (d : A -> json) s s' m m' : always n d s ++ m = always n d s' ++ m' -> always n d s = always n d s' /\ m = m'.
Proof. unfold always. cbn [app]. intros E. injection E as E ->. rewrite E. auto. Qed.
Lemma optional_names {A} n (d : A -> json) s x : In x (map fst (optional n d s)) -> x = lit n.
Proof. destruct s as [[|a l]|]; cbn; intuition. Qed.
Lemma jobj_inj m m' : JObj m = JObj m' -> m = m'. Proof. congruence. Qed.
Ltac unnamed := unfold not_named; rewrite ?map_app, ?in_app_iff; intros Hin;
  repeat match type of Hin with _ \/ _ => destruct Hin as [Hin|Hin] end; try (apply optional_names in Hin); cbn in Hin; intuition discriminate.

Lemma attribute_inj a a' : doc_attribute a = doc_attribute a' -> a = a'.
Proof.
  destruct a as [ty v], a' as [ty' v']. unfold doc_attribute. intros E. apply jobj_inj in E. apply text_inj in E as [E1 E]. cbn in E1, E. subst ty'.
  destruct v as [v|], v' as [v'|]; try discriminate; [|reflexivity]. injection E as ->. reflexivity.
Qed.
Lemma index_inj a a' : doc_index a = doc_index a' -> a = a'.
Proof.
  destruct a as [n c ty], a' as [n' c' ty']. unfold doc_index. intros E. apply jobj_inj in E. apply text_inj in E as [E1 E]. cbn [ix_name ix_cols ix_type] in *. subst n'.
  apply always_app in E as [E1 E]. apply always_inj in E1; [|apply jstr_inj]. subst c'.
  destruct ty as [|x ty], ty' as [|x' ty']; try discriminate; [reflexivity|]. injection E as -> ->. reflexivity.
Qed.
Lemma fkaction_inj a a' : doc_fkaction a = doc_fkaction a' -> a = a'.
Proof.
  destruct a, a'. unfold doc_fkaction. intros E. apply jobj_inj in E. apply text_inj in E as [E1 E]. injection E as E. cbn in *. congruence.
Qed.
Lemma fkey_inj a a' : doc_fkey a = doc_fkey a' -> a = a'.
Proof.
  destruct a as [c p t ac], a' as [c' p' t' ac']. unfold doc_fkey. intros E. apply jobj_inj in E. cbn [fk_child fk_parent fk_table fk_acts] in *.
  apply always_app in E as [E1 E]. apply always_app in E as [E2 E]. apply text_inj in E as [E3 E].
  apply always_inj in E1; [|apply jstr_inj]. apply always_inj in E2; [|apply jstr_inj]. apply always_inj in E; [|apply fkaction_inj]. congruence.
Qed.
Lemma config_inj a a' : doc_config a = doc_config a' -> a = a'.
Proof.
  destruct a, a'. unfold doc_config. intros E. apply jobj_inj in E. apply text_inj in E as [E1 E]. injection E as E. cbn in *. congruence.
Qed.
Lemma extension_inj a a' : doc_extension a = doc_extension a' -> a = a'.
Proof.
  destruct a as [n c al], a' as [n' c' al']. unfold doc_extension. intros E. apply jobj_inj in E. cbn [ex_name ex_config ex_alias] in *.
  apply text_inj in E as [E1 E]. apply always_app in E as [E2 E]. apply always_inj in E2; [|apply config_inj]. injection E as E. congruence.
Qed.
Lemma column_inj a a' : doc_column a = doc_column a' -> column_like a a'.
Proof.
  unfold doc_column, column_like. intros E. apply jobj_inj in E. apply text_inj in E as [E1 E]. apply text_inj in E as [E2 E].
  rewrite <- (app_nil_r (optional _ _ (co_attrs a))), <- (app_nil_r (optional _ _ (co_attrs a'))) in E.
  apply (optional_inj _ _ eq) in E as [E3 _]; [auto|apply attribute_inj| |]; unnamed.
Qed.
Lemma table_inj a a' : doc_table a = doc_table a' -> table_like a a'.
Proof.
  unfold doc_table, table_like. intros E. apply jobj_inj in E. apply text_inj in E as [E1 E].
  apply (optional_inj _ _ column_like) in E as [E2 E]; [|apply column_inj| |]; try unnamed.
  apply (optional_inj _ _ eq) in E as [E3 E]; [|apply index_inj| |]; try unnamed.
  rewrite <- (app_nil_r (optional _ _ (tb_fks a))), <- (app_nil_r (optional _ _ (tb_fks a'))) in E.
  apply (optional_inj _ _ eq) in E as [E4 _]; [|apply fkey_inj| |]; try unnamed. auto.
Qed.
Lemma bool_inj n b b' (m m' : list (str * json)) : [(lit n, JBool b)] ++ m = [(lit n, JBool b')] ++ m' -> b = b' /\ m = m'.
Proof. cbn [app]. intros E. injection E as -> ->. auto. Qed.
Lemma action_inj a a' : doc_action a = doc_action a' -> action_like a a'.
Proof.
  unfold doc_action, action_like. intros E. apply jobj_inj in E. apply text_inj in E as [E1 E].
  apply (optional_inj _ _ eq) in E as [E2 E]; [|apply jstr_inj| |]; try (unfold always; unnamed).
  apply always_app in E as [E3 E]. apply always_inj in E3; [|apply jstr_inj]. apply bool_inj in E as [E4 E]. apply text_inj in E as [E5 E].
  apply always_app in E as [E6 E]. apply always_inj in E6; [|apply jstr_inj].
  rewrite <- (app_nil_r (optional _ _ (ac_stmts a))), <- (app_nil_r (optional _ _ (ac_stmts a'))) in E.
  apply (optional_inj _ _ eq) in E as [E7 _]; [|apply jstr_inj| |]; try unnamed. auto 8.
Qed.
Lemma schema_inj a a' : doc_schema a = doc_schema a' -> schema_like a a'.
Proof.
  unfold doc_schema, schema_like. intros E. apply jobj_inj in E. apply text_inj in E as [E1 E]. apply text_inj in E as [E2 E].
  apply (optional_inj _ _ table_like) in E as [E3 E]; [|apply table_inj| |]; try unnamed.
  apply (optional_inj _ _ action_like) in E as [E4 E]; [|apply action_inj| |]; try unnamed.
  rewrite <- (app_nil_r (optional _ _ (sc_exts a))), <- (app_nil_r (optional _ _ (sc_exts a'))) in E.
  apply (optional_inj _ _ eq) in E as [E5 _]; [|apply extension_inj| |]; try unnamed. auto 8.
Qed.
(** Nodes of one Go type. *)
Definition same_type (n n' : node) : Prop :=
  match n, n' with
  | NSchema _, NSchema _ | NExtension _, NExtension _ | NTable _, NTable _ | NColumn _, NColumn _ | NAttribute _, NAttribute _
  | NIndex _, NIndex _ | NForeignKey _, NForeignKey _ | NAction _, NAction _ => True
  | _, _ => False
  end.
Theorem document_inj n n' : same_type n n' -> document n = document n' -> node_like n n'.
Proof.
  destruct n, n'; cbn [same_type document node_like]; try tauto; intros _ E;
    [apply schema_inj|f_equal; apply extension_inj|apply table_inj|apply column_inj|f_equal; apply attribute_inj|f_equal; apply index_inj
    |f_equal; apply fkey_inj|apply action_inj]; exact E.
Qed.

(** ** Member names are distinct *)
Lemma unique_arr {A} (d : A -> json) l : (forall a, unique_names (d a)) -> Forall unique_names (map d l).
Proof. intros H. induction l; constructor; auto. Qed.
Lemma unique_optional {A} n (d : A -> json) s : (forall a, unique_names (d a)) -> Forall unique_names (map snd (optional n d s)).
Proof. intros H. destruct s as [[|a l]|]; cbn; try constructor; [|constructor]. constructor. apply (unique_arr d (a :: l)). exact H. Qed.
Lemma unique_always {A} n (d : A -> json) s : (forall a, unique_names (d a)) -> Forall unique_names (map snd (always n d s)).
Proof. intros H. destruct s as [l|]; cbn; constructor; try constructor. apply unique_arr. exact H. Qed.
Lemma unique_text n s : Forall unique_names (map snd (text_member n s)).
Proof. cbn. repeat constructor. Qed.
Definition nodup_b (l : list str) : bool := (fix go (l : list str) := match l with [] => true | a :: r => negb (mem_str a r) && go r end) l.
Lemma nodup_b_ok l : nodup_b l = true -> NoDup l.
Proof.
  induction l as [|a l IH]; cbn; intros H; constructor; apply andb_prop in H as [H1 H2]; [|apply IH; exact H2].
  apply negb_true_iff in H1. apply mem_str_nIn in H1. exact H1.
Qed.
Ltac names := rewrite ?map_app; repeat match goal with
  | |- context [map fst (optional ?n ?d ?s)] => let H := fresh in assert (H : map fst (optional n d s) = [] \/ map fst (optional n d s) = [lit n]) by (destruct s as [[|? ?]|]; cbn; auto); destruct H as [-> | ->]
  end; apply nodup_b_ok; vm_compute; reflexivity.
Ltac parts := rewrite ?map_app; repeat (apply Forall_app; split).
Lemma unique_str a : unique_names (JStr a). Proof. constructor. Qed.
Lemma unique_attribute a : unique_names (doc_attribute a).
Proof. destruct a as [ty [v|]]; (constructor; [apply nodup_b_ok; reflexivity|cbn; repeat constructor]). Qed.
Lemma unique_column a : unique_names (doc_column a).
Proof.
  constructor; [names|parts]; [apply unique_text|apply unique_text|apply unique_optional, unique_attribute].
Qed.
Lemma unique_index a : unique_names (doc_index a).
Proof.
  destruct a as [n c [|x ty]]; (constructor; [cbn [ix_name ix_cols ix_type]; names|parts]; [apply unique_text|apply unique_always, unique_str|]).
  - constructor.
  - apply unique_text.
Qed.
Lemma unique_fkaction a : unique_names (doc_fkaction a).
Proof. constructor; [names|parts]; apply unique_text. Qed.
Lemma unique_fkey a : unique_names (doc_fkey a).
Proof.
  constructor; [names|parts]; [apply unique_always, unique_str|apply unique_always, unique_str|apply unique_text|apply unique_always, unique_fkaction].
Qed.
Lemma unique_config a : unique_names (doc_config a).
Proof. constructor; [names|parts]; apply unique_text. Qed.
Lemma unique_extension a : unique_names (doc_extension a).
Proof. constructor; [names|parts]; [apply unique_text|apply unique_always, unique_config|apply unique_text]. Qed.
Lemma unique_table a : unique_names (doc_table a).
Proof.
  constructor; [names|parts]; [apply unique_text|apply unique_optional, unique_column|apply unique_optional, unique_index|apply unique_optional, unique_fkey].
Qed.
Lemma unique_action a : unique_names (doc_action a).
Proof.
  constructor; [names|parts]; [apply unique_text|apply unique_optional, unique_str|apply unique_always, unique_str|cbn; repeat constructor|apply unique_text
    |apply unique_always, unique_str|apply unique_optional, unique_str].
Qed.
Lemma unique_schema a : unique_names (doc_schema a).
Proof.
  constructor; [names|parts]; [apply unique_text|apply unique_text|apply unique_optional, unique_table|apply unique_optional, unique_action|apply unique_optional, unique_extension].
Qed.
Theorem unique_document n : unique_names (document n).
Proof.
  destruct n; [apply unique_schema|apply unique_extension|apply unique_table|apply unique_column|apply unique_attribute|apply unique_index|apply unique_fkey|apply unique_action].
Qed.

(** ** Valid strings *)
(** Rewriting strings that do not change changes nothing. *)
Lemma smap_id {A} (f : A -> A) (P : A -> Prop) s : (forall a, P a -> f a = a) -> sall P s -> smap f s = s.
Proof. intros Hf. destruct s as [l|]; [|reflexivity]. cbn. intros H. f_equal. induction H; cbn; f_equal; auto. Qed.
Section Same.
  Variable f : str -> str. Variable P : str -> Prop. Hypothesis Hf : forall a, P a -> f a = a.
  Lemma id_attribute a : all_attribute P a -> map_attribute f a = a.
  Proof. destruct a as [ty [v|]]; intros [H1 H2]; unfold map_attribute; cbn in *; rewrite Hf by exact H1; [rewrite (Hf v) by (apply H2; reflexivity)|]; reflexivity. Qed.
  Lemma id_column a : all_column P a -> map_column f a = a.
  Proof. destruct a; intros (H1 & H2 & H3); unfold map_column; cbn in *. rewrite !Hf, (smap_id _ _ _ id_attribute) by assumption. reflexivity. Qed.
  Lemma id_index a : all_index P a -> map_index f a = a.
  Proof. destruct a; intros (H1 & H2 & H3); unfold map_index; cbn in *. rewrite !Hf, (smap_id _ _ _ Hf) by assumption. reflexivity. Qed.
  Lemma id_fkaction a : all_fkaction P a -> map_fkaction f a = a.
  Proof. destruct a; intros (H1 & H2); unfold map_fkaction; cbn in *. rewrite !Hf by assumption. reflexivity. Qed.
  Lemma id_fkey a : all_fkey P a -> map_fkey f a = a.
  Proof. destruct a; intros (H1 & H2 & H3 & H4); unfold map_fkey; cbn in *. rewrite !Hf, !(smap_id _ _ _ Hf), (smap_id _ _ _ id_fkaction) by assumption. reflexivity. Qed.
  Lemma id_table a : all_table P a -> map_table f a = a.
  Proof.
    destruct a; intros (H1 & H2 & H3 & H4); unfold map_table; cbn in *.
    rewrite !Hf, (smap_id _ _ _ id_column), (smap_id _ _ _ id_index), (smap_id _ _ _ id_fkey) by assumption. reflexivity.
  Qed.
  Lemma id_config a : all_config P a -> map_config f a = a.
  Proof. destruct a; intros (H1 & H2); unfold map_config; cbn in *. rewrite !Hf by assumption. reflexivity. Qed.
  Lemma id_extension a : all_extension P a -> map_extension f a = a.
  Proof. destruct a; intros (H1 & H2 & H3); unfold map_extension; cbn in *. rewrite !Hf, (smap_id _ _ _ id_config) by assumption. reflexivity. Qed.
  Lemma id_action a : all_action P a -> map_action f a = a.
  Proof. destruct a; intros (H1 & H2 & H3 & H4 & H5 & H6); unfold map_action; cbn in *. rewrite !Hf, !(smap_id _ _ _ Hf) by assumption. reflexivity. Qed.
  Lemma id_schema a : all_schema P a -> map_schema f a = a.
  Proof.
    destruct a; intros (H1 & H2 & H3 & H4 & H5); unfold map_schema; cbn in *.
    rewrite !Hf, (smap_id _ _ _ id_table), (smap_id _ _ _ id_action), (smap_id _ _ _ id_extension) by assumption. reflexivity.
  Qed.
  Lemma id_node n : all_node P n -> map_node f n = n.
  Proof.
    destruct n; cbn [all_node map_node]; intros H; f_equal;
      [apply id_schema|apply id_extension|apply id_table|apply id_column|apply id_attribute|apply id_index|apply id_fkey|apply id_action]; exact H.
  Qed.
End Same.

Lemma smap_smap {A B C} (f : B -> C) (g : A -> B) (h : A -> C) s : (forall a, f (g a) = h a) -> smap f (smap g s) = smap h s.
Proof. intros H. destruct s as [l|]; [|reflexivity]. cbn. rewrite map_map. f_equal. apply map_ext. exact H. Qed.
Section Compose.
  Variable f g : str -> str.
  Let h := fun x => f (g x).
  Lemma fg a : f (g a) = h a. Proof. reflexivity. Qed.
  Lemma comp_attribute a : map_attribute f (map_attribute g a) = map_attribute h a.
  Proof. destruct a as [ty [v|]]; reflexivity. Qed.
  Lemma comp_column a : map_column f (map_column g a) = map_column h a.
  Proof. unfold map_column. cbn. rewrite (smap_smap _ _ _ _ comp_attribute). reflexivity. Qed.
  Lemma comp_index a : map_index f (map_index g a) = map_index h a.
  Proof. unfold map_index. cbn. rewrite (smap_smap _ _ _ _ fg). reflexivity. Qed.
  Lemma comp_fkaction a : map_fkaction f (map_fkaction g a) = map_fkaction h a.
  Proof. reflexivity. Qed.
  Lemma comp_fkey a : map_fkey f (map_fkey g a) = map_fkey h a.
  Proof. unfold map_fkey. cbn. rewrite !(smap_smap _ _ _ _ fg), (smap_smap _ _ _ _ comp_fkaction). reflexivity. Qed.
  Lemma comp_table a : map_table f (map_table g a) = map_table h a.
  Proof. unfold map_table. cbn. rewrite (smap_smap _ _ _ _ comp_column), (smap_smap _ _ _ _ comp_index), (smap_smap _ _ _ _ comp_fkey). reflexivity. Qed.
  Lemma comp_config a : map_config f (map_config g a) = map_config h a.
  Proof. reflexivity. Qed.
  Lemma comp_extension a : map_extension f (map_extension g a) = map_extension h a.
  Proof. unfold map_extension. cbn. rewrite (smap_smap _ _ _ _ comp_config). reflexivity. Qed.
  Lemma comp_action a : map_action f (map_action g a) = map_action h a.
  Proof. unfold map_action. cbn. rewrite !(smap_smap _ _ _ _ fg). reflexivity. Qed.
  Lemma comp_schema a : map_schema f (map_schema g a) = map_schema h a.
  Proof. unfold map_schema. cbn. rewrite (smap_smap _ _ _ _ comp_table), (smap_smap _ _ _ _ comp_action), (smap_smap _ _ _ _ comp_extension). reflexivity. Qed.
  Lemma comp_node n : map_node f (map_node g n) = map_node h n.
  Proof.
    destruct n; cbn [map_node]; f_equal;
      [apply comp_schema|apply comp_extension|apply comp_table|apply comp_column|apply comp_attribute|apply comp_index|apply comp_fkey|apply comp_action].
  Qed.
  Lemma map_loosely {A} (m : A -> A) (R : A -> A -> Prop) s s' : (forall a a', R a a' -> R (m a) (m a')) -> loosely R s s' -> loosely R (smap m s) (smap m s').
  Proof.
    intros Hm H. unfold loosely in *. assert (E : forall s : slice A, elems (smap m s) = map m (elems s)) by (intros [l|]; reflexivity).
    rewrite !E. induction H; cbn; constructor; auto.
  Qed.
  Lemma eq_map {A} (m : A -> A) a a' : a = a' -> m a = m a'. Proof. congruence. Qed.
  Lemma like_column a a' : column_like a a' -> column_like (map_column f a) (map_column f a').
  Proof. intros (H1 & H2 & H3). unfold column_like, map_column. cbn. rewrite H1, H2. split; [reflexivity|]. split; [reflexivity|]. apply map_loosely; [apply eq_map|exact H3]. Qed.
  Lemma like_table a a' : table_like a a' -> table_like (map_table f a) (map_table f a').
  Proof.
    intros (H1 & H2 & H3 & H4). unfold table_like, map_table. cbn. rewrite H1. split; [reflexivity|].
    split; [apply map_loosely; [apply like_column|exact H2]|]. split; apply map_loosely; try apply eq_map; assumption.
  Qed.
  Lemma like_action a a' : action_like a a' -> action_like (map_action f a) (map_action f a').
  Proof.
    intros (H1 & H2 & H3 & H4 & H5 & H6 & H7). unfold action_like, map_action. cbn. rewrite H1, H3, H4, H5, H6.
    split; [reflexivity|]. split; [apply map_loosely; [apply eq_map|exact H2]|]. do 4 (split; [reflexivity|]). apply map_loosely; [apply eq_map|exact H7].
  Qed.
  Lemma like_schema a a' : schema_like a a' -> schema_like (map_schema f a) (map_schema f a').
  Proof.
    intros (H1 & H2 & H3 & H4 & H5). unfold schema_like, map_schema. cbn. rewrite H1, H2. do 2 (split; [reflexivity|]).
    split; [apply map_loosely; [apply like_table|exact H3]|]. split; [apply map_loosely; [apply like_action|exact H4]|]. apply map_loosely; [apply eq_map|exact H5].
  Qed.
  Lemma like_node n n' : node_like n n' -> node_like (map_node f n) (map_node f n').
  Proof.
    destruct n, n'; cbn [node_like map_node]; try tauto; intros H;
      [apply like_schema; exact H|congruence|apply like_table; exact H|apply like_column; exact H|congruence|congruence|congruence|apply like_action; exact H].
  Qed.
End Compose.

(** What a function makes of all strings. *)
Section Any.
  Variable f : str -> str. Variable P : str -> Prop. Hypothesis HP : forall a, P (f a).
  Lemma any_smap {A B} (m : A -> B) (R : B -> Prop) s : (forall a, R (m a)) -> sall R (smap m s).
  Proof. intros H. destruct s as [l|]; cbn; [|exact I]. induction l; constructor; auto. Qed.
  Lemma any_attribute a : all_attribute P (map_attribute f a).
  Proof. split; [apply HP|]. destruct a as [ty [v|]]; cbn; intros u E; [injection E as <-; apply HP|discriminate]. Qed.
  Lemma any_column a : all_column P (map_column f a).
  Proof. split; [|split]; try apply HP. apply any_smap, any_attribute. Qed.
  Lemma any_index a : all_index P (map_index f a).
  Proof. split; [|split]; try apply HP. apply any_smap, HP. Qed.
  Lemma any_fkaction a : all_fkaction P (map_fkaction f a).
  Proof. split; apply HP. Qed.
  Lemma any_fkey a : all_fkey P (map_fkey f a).
  Proof. split; [|split; [|split]]; try apply HP; apply any_smap; try apply HP. apply any_fkaction. Qed.
  Lemma any_table a : all_table P (map_table f a).
  Proof. split; [|split; [|split]]; try apply HP; apply any_smap; [apply any_column|apply any_index|apply any_fkey]. Qed.
  Lemma any_config a : all_config P (map_config f a).
  Proof. split; apply HP. Qed.
  Lemma any_extension a : all_extension P (map_extension f a).
  Proof. split; [|split]; try apply HP. apply any_smap, any_config. Qed.
  Lemma any_action a : all_action P (map_action f a).
  Proof. split; [|split; [|split; [|split; [|split]]]]; try apply HP; apply any_smap, HP. Qed.
  Lemma any_schema a : all_schema P (map_schema f a).
  Proof. split; [|split; [|split; [|split]]]; try apply HP; apply any_smap; [apply any_table|apply any_action|apply any_extension]. Qed.
  Lemma any_node n : all_node P (map_node f n).
  Proof.
    destruct n; [apply any_schema|apply any_extension|apply any_table|apply any_column|apply any_attribute|apply any_index|apply any_fkey|apply any_action].
  Qed.
End Any.

(** ** Schemas with nil for nothing are equal when they are alike *)
Lemma loosely_eq {A} (R : A -> A -> Prop) (P : A -> Prop) s s' : (forall a a', P a -> P a' -> R a a' -> a = a') ->
  Forall P (elems s) -> Forall P (elems s') -> s <> Some [] -> s' <> Some [] -> loosely R s s' -> s = s'.
Proof.
  intros HR H H' N N' L. unfold loosely in L. assert (E : elems s = elems s').
  { clear N N'. revert H H'. induction L as [|a a' l l' Ha L IH]; intros H H'; [reflexivity|]. inversion H; inversion H'; subst. f_equal; auto. }
  destruct s as [[|a l]|], s' as [[|a' l']|]; cbn in E; congruence.
Qed.

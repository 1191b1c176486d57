(** What a struct tag means, word by word (C33). *)
From Verif Require Import TrimFacts Tags Num.
From Coq Require Import List Bool.
Import ListNotations.
Local Open Scope string_scope.
Local Open Scope list_scope.

(** * Words *)

(** No space inside. *)
Fixpoint sp_free (w : string) : Prop :=
  match w with
  | EmptyString => True
  | String c r => c <> " "%char /\ sp_free r
  end.

(** [ws] are the words of [s]. *)
Definition words_of (s : string) (ws : list string) : Prop :=
  ws <> [] /\ Forall sp_free ws /\ String.concat " " ws = s.

Lemma split_nonempty s : split_sp s <> [].
Proof. destruct s as [|c r]; cbn [split_sp]; [easy|]. destruct (Ascii.eqb c " "); [easy|]. now destruct (split_sp r). Qed.

Lemma words_split s : words_of s (split_sp s).
Proof.
  split; [apply split_nonempty|]. induction s as [|c r [IHf IHc]].
  - split; [repeat constructor|reflexivity].
  - cbn [split_sp]. destruct (Ascii.eqb c " ") eqn:Ec.
    + apply Ascii.eqb_eq in Ec as ->. split; [constructor; [exact I|exact IHf]|].
      pose proof (split_nonempty r) as Hn. destruct (split_sp r) as [|w ws]; [easy|].
      cbn [String.concat] in *. rewrite IHc. reflexivity.
    + pose proof (split_nonempty r) as Hn. destruct (split_sp r) as [|w ws]; [easy|].
      inversion_clear IHf as [|? ? Hw Hws]. split.
      * constructor; [|exact Hws]. split; [|exact Hw]. intros ->. now rewrite Ascii.eqb_refl in Ec.
      * rewrite <- IHc. destruct ws; reflexivity.
Qed.

Lemma split_word w : sp_free w -> split_sp w = [w].
Proof.
  induction w as [|c r IH]; [reflexivity|]. intros [Hc Hr]. cbn [split_sp].
  apply Ascii.eqb_neq in Hc. rewrite Hc, (IH Hr). reflexivity.
Qed.
Lemma split_word_app w s : sp_free w -> split_sp (w ++ String " " s)%string = w :: split_sp s.
Proof.
  induction w as [|c r IH]; [reflexivity|]. intros [Hc Hr]. cbn [String.append split_sp].
  apply Ascii.eqb_neq in Hc. rewrite Hc. rewrite (IH Hr). reflexivity.
Qed.
Lemma words_unique s ws : words_of s ws -> split_sp s = ws.
Proof.
  intros (Hn & Hf & <-). induction ws as [|w ws IH]; [easy|].
  inversion_clear Hf as [|? ? Hw Hws]. destruct ws as [|w' ws].
  - cbn [String.concat]. now apply split_word.
  - specialize (IH ltac:(easy) Hws). change (String.concat " " (w :: w' :: ws))
      with (w ++ String " " (String.concat " " (w' :: ws)))%string.
    rewrite split_word_app by exact Hw. now rewrite IH.
Qed.

(** * Classes of words *)

Definition sizeof_word (w : string) : Prop := exists n, w = ("sizeof=" ++ n)%string.

Lemma strip_prefix_some p : forall s n, strip_prefix p s = Some n -> s = (p ++ n)%string.
Proof.
  induction p as [|a p IH]; intros s n H; cbn in H; [now injection H as ->|].
  destruct s as [|b s]; [discriminate|]. destruct (Ascii.eqb a b) eqn:E; [|discriminate].
  apply Ascii.eqb_eq in E as ->. apply IH in H as ->. reflexivity.
Qed.
Lemma strip_prefix_app p n : strip_prefix p (p ++ n)%string = Some n.
Proof. induction p as [|a p IH]; [now destruct n|]. cbn. now rewrite Ascii.eqb_refl. Qed.
Lemma append_inj p : forall a b, (p ++ a)%string = (p ++ b)%string -> a = b.
Proof. induction p as [|c p IH]; intros a b H; [exact H|]. injection H as H. now apply IH. Qed.

Definition big := "big". Definition little := "little".

(** The fold, field by field. *)
Definition after (ws : list string) (t : field_tag) : field_tag := fold_left tag_word ws t.

Definition flag_of (get : field_tag -> bool) (names : list string) : Prop :=
  forall t s, get (tag_word t s) = get t || existsb (String.eqb s) names.

Ltac words :=
  intros t s; unfold tag_word;
  destruct (strip_prefix "sizeof=" s) eqn:Es;
  [ apply strip_prefix_some in Es as ->; cbn; now rewrite ?orb_false_r |];
  cbn [existsb];
  destruct (String.eqb s "big") eqn:E1; [apply String.eqb_eq in E1 as ->; cbn; now rewrite ?orb_false_r|];
  destruct (String.eqb s "little") eqn:E2; [apply String.eqb_eq in E2 as ->; cbn; now rewrite ?orb_false_r|];
  destruct (String.eqb s "optional") eqn:E3;
    [apply String.eqb_eq in E3 as ->; cbn; now rewrite ?orb_false_r, ?orb_true_r|];
  destruct (String.eqb s "option") eqn:E4;
    [apply String.eqb_eq in E4 as ->; cbn; now rewrite ?orb_false_r, ?orb_true_r|];
  cbn [orb];
  destruct (String.eqb s "coption") eqn:E5;
    [apply String.eqb_eq in E5 as ->; cbn; now rewrite ?orb_false_r, ?orb_true_r|];
  destruct (String.eqb s "binary_extension") eqn:E6;
    [apply String.eqb_eq in E6 as ->; cbn; now rewrite ?orb_false_r, ?orb_true_r|];
  destruct (String.eqb s "-") eqn:E7;
    [apply String.eqb_eq in E7 as ->; cbn; now rewrite ?orb_false_r, ?orb_true_r|];
  destruct (String.eqb s "skip") eqn:E8;
    [apply String.eqb_eq in E8 as ->; cbn; now rewrite ?orb_false_r, ?orb_true_r|];
  cbn [orb];
  destruct (String.eqb s "enum") eqn:E9;
    [apply String.eqb_eq in E9 as ->; cbn; now rewrite ?orb_false_r, ?orb_true_r|];
  cbn; rewrite ?orb_false_r; try reflexivity.

Lemma skip_flag : flag_of ft_skip ["-"; "skip"]. Proof. words. Qed.
Lemma option_flag : flag_of ft_option ["optional"; "option"]. Proof. words. Qed.
Lemma coption_flag : flag_of ft_coption ["coption"]. Proof. words. Qed.
Lemma ext_flag : flag_of ft_ext ["binary_extension"]. Proof. words. Qed.
Lemma enum_flag : flag_of ft_enum ["enum"]. Proof. words. Qed.

Lemma fold_flag get names : flag_of get names -> forall ws t,
  get (after ws t) = get t || existsb (fun s => existsb (String.eqb s) names) ws.
Proof.
  intro H. unfold after. induction ws as [|w ws IH]; intro t; cbn [fold_left existsb].
  - now rewrite orb_false_r.
  - rewrite IH, H. now rewrite orb_assoc.
Qed.
Lemma fold_flag_in get names ws t : flag_of get names ->
  (get (after ws t) = true <-> get t = true \/ exists w, In w names /\ In w ws).
Proof.
  intro H. rewrite (fold_flag _ _ H), orb_true_iff, existsb_exists.
  split; (intros [Ht|H']; [now left|right]).
  - destruct H' as (s & Hs & Hn). apply existsb_exists in Hn as (n & Hn & Heq).
    apply String.eqb_eq in Heq as ->. eauto.
  - destruct H' as (s & Hn & Hs). exists s. split; [exact Hs|]. apply existsb_exists.
    exists s. split; [exact Hn|apply String.eqb_refl].
Qed.

Definition order_word (s : string) (o : order) : order :=
  if String.eqb s "big" then BE else if String.eqb s "little" then LE else o.
Lemma word_order t s : ft_order (tag_word t s) = order_word s (ft_order t).
Proof. revert t s. unfold order_word. words. all: rewrite ?E1, ?E2; reflexivity. Qed.
Definition size_word (s : string) (o : string) : string :=
  match strip_prefix "sizeof=" s with Some n => n | None => o end.
Lemma word_size t s : ft_sizeof (tag_word t s) = size_word s (ft_sizeof t).
Proof.
  revert t s. unfold size_word. intros t s. unfold tag_word.
  destruct (strip_prefix "sizeof=" s); [reflexivity|].
  repeat match goal with |- context [if ?b then _ else _] => destruct b; [reflexivity|] end. reflexivity.
Qed.

(** The last of the words that count. *)
Definition last_of (P : string -> Prop) (w : string) (ws : list string) : Prop :=
  exists a b, ws = a ++ w :: b /\ P w /\ Forall (fun x => ~ P x) b.

Lemma fold_last {A} (P : string -> Prop) (step : string -> A -> A) (f : string -> A)
  (dec : forall w, P w \/ ~ P w) (H1 : forall w o, P w -> step w o = f w)
  (H2 : forall w o, ~ P w -> step w o = o) : forall ws o,
  let r := fold_left (fun o w => step w o) ws o in
  (exists w, last_of P w ws /\ r = f w) \/ (Forall (fun x => ~ P x) ws /\ r = o).
Proof.
  induction ws as [|w ws IH]; intro o; cbn [fold_left]; [right; split; [constructor|reflexivity]|].
  destruct (IH (step w o)) as [(w' & (a & b & -> & Hp & Hb) & Hr)|[Hn Hr]].
  - left. exists w'. split; [|exact Hr]. exists (w :: a), b. auto.
  - destruct (dec w) as [Hw|Hw].
    + left. exists w. split; [now exists [], ws|]. cbv zeta. rewrite Hr. now apply H1.
    + right. split; [now constructor|]. cbv zeta. rewrite Hr. now apply H2.
Qed.

Lemma fold_get {A} (get : field_tag -> A) (step : string -> A -> A)
  (H : forall t s, get (tag_word t s) = step s (get t)) : forall ws t,
  get (after ws t) = fold_left (fun o w => step w o) ws (get t).
Proof. unfold after. induction ws as [|w ws IH]; intro t; cbn [fold_left]; [reflexivity|]. now rewrite IH, H. Qed.

Definition order_name (w : string) : Prop := w = "big" \/ w = "little".

Lemma order_last ws t : let o := ft_order (after ws t) in
  (last_of order_name "big" ws /\ o = BE) \/ (last_of order_name "little" ws /\ o = LE) \/
  (Forall (fun w => ~ order_name w) ws /\ o = ft_order t).
Proof.
  cbv zeta. rewrite (fold_get _ _ word_order).
  destruct (fold_last order_name order_word (fun w => if String.eqb w "big" then BE else LE)) with
    (ws := ws) (o := ft_order t) as [(w & Hl & ->)|[Hn ->]]; auto.
  - intro w. unfold order_name. destruct (string_dec w "big"); [tauto|]. destruct (string_dec w "little"); tauto.
  - intros w o [-> | ->]; reflexivity.
  - intros w o Hw. unfold order_word. destruct (String.eqb w "big") eqn:E1.
    { destruct Hw. left. now apply String.eqb_eq. }
    destruct (String.eqb w "little") eqn:E2; [|reflexivity]. destruct Hw. right. now apply String.eqb_eq.
  - pose proof Hl as (_ & _ & _ & [-> | ->] & _); auto.
Qed.
Lemma size_last ws t : let n := ft_sizeof (after ws t) in
  last_of sizeof_word ("sizeof=" ++ n)%string ws \/ (Forall (fun w => ~ sizeof_word w) ws /\ n = ft_sizeof t).
Proof.
  cbv zeta. rewrite (fold_get _ _ word_size).
  destruct (fold_last sizeof_word size_word (fun w => size_word w "")) with (ws := ws) (o := ft_sizeof t)
    as [(w & Hl & ->)|[Hn ->]]; auto.
  - intro w. unfold sizeof_word. destruct (strip_prefix "sizeof=" w) eqn:E.
    + left. apply strip_prefix_some in E. eauto.
    + right. intros [n ->]. now rewrite strip_prefix_app in E.
  - intros w o [n ->]. unfold size_word. now rewrite strip_prefix_app.
  - intros w o Hw. unfold size_word. destruct (strip_prefix "sizeof=" w) eqn:E; [|reflexivity].
    destruct Hw. apply strip_prefix_some in E. now exists s.
  - left. pose proof Hl as (_ & _ & _ & [n ->] & _). unfold size_word. now rewrite strip_prefix_app.
Qed.

(** * The whole tag *)

(** [says_true] (TrimFacts): a value "true", up to white space around it. *)

(** The meaning of a tag with the words [ws]. *)
Record means (tag : rawtag) (ws : list string) (t : field_tag) : Prop := {
  m_skip : ft_skip t = true <-> In "-" ws \/ In "skip" ws \/ says_true (tg_borsh_skip tag);
  m_option : ft_option t = true <-> In "optional" ws \/ In "option" ws;
  m_coption : ft_coption t = true <-> In "coption" ws;
  m_ext : ft_ext t = true <-> In "binary_extension" ws;
  m_enum : ft_enum t = true <-> In "enum" ws \/ says_true (tg_borsh_enum tag);
  m_order : ft_order t = BE <-> last_of order_name "big" ws;
  m_sizeof : forall n, n <> "" -> ft_sizeof t = n <-> last_of sizeof_word ("sizeof=" ++ n)%string ws;
  m_nosize : ft_sizeof t = "" <->
    last_of sizeof_word "sizeof=" ws \/ Forall (fun w => ~ sizeof_word w) ws }.

Lemma last_of_unique P w w' ws : last_of P w ws -> last_of P w' ws -> w = w'.
Proof.
  intros (a & b & -> & Hp & Hb) (a' & b' & He & Hp' & Hb').
  revert a' He. induction a as [|x a IH]; intros [|x' a'] He; cbn in He; injection He as -> He.
  - reflexivity.
  - subst b. rewrite Forall_app in Hb. destruct Hb as [_ Hb]. inversion_clear Hb. easy.
  - subst b'. rewrite Forall_app in Hb'. destruct Hb' as [_ Hb']. inversion_clear Hb'. easy.
  - now apply (IH a').
Qed.
Lemma last_of_none P w ws : last_of P w ws -> Forall (fun x => ~ P x) ws -> False.
Proof.
  intros (a & b & -> & Hp & _) H. rewrite Forall_app in H. destruct H as [_ H]. inversion_clear H. easy.
Qed.

Lemma tag_means tag ws : words_of (tg_bin tag) ws -> means tag ws (parse_field_tag tag).
Proof.
  intro Hw. apply words_unique in Hw. unfold parse_field_tag. rewrite Hw. cbv zeta.
  change (fold_left tag_word ws ft0) with (after ws ft0).
  assert (Hb1 : String.eqb (trim_space (tg_borsh_skip tag)) "true" = true <-> says_true (tg_borsh_skip tag))
    by (rewrite String.eqb_eq; apply trim_true).
  assert (Hb2 : String.eqb (trim_space (tg_borsh_enum tag)) "true" = true <-> says_true (tg_borsh_enum tag))
    by (rewrite String.eqb_eq; apply trim_true).
  set (b1 := String.eqb (trim_space (tg_borsh_skip tag)) "true") in *.
  set (b2 := String.eqb (trim_space (tg_borsh_enum tag)) "true") in *.
  pose proof (fold_flag_in _ _ ws ft0 skip_flag) as Hs.
  pose proof (fold_flag_in _ _ ws ft0 option_flag) as Ho.
  pose proof (fold_flag_in _ _ ws ft0 coption_flag) as Hc.
  pose proof (fold_flag_in _ _ ws ft0 ext_flag) as He.
  pose proof (fold_flag_in _ _ ws ft0 enum_flag) as Hn.
  pose proof (order_last ws ft0) as Hor. pose proof (size_last ws ft0) as Hsz. cbv zeta in Hor, Hsz.
  set (t := after ws ft0) in *.
  set (t1 := if b1 then _ else t).
  assert (H1 : ft_skip t1 = b1 || ft_skip t /\ ft_order t1 = ft_order t /\ ft_option t1 = ft_option t /\
    ft_coption t1 = ft_coption t /\ ft_ext t1 = ft_ext t /\ ft_enum t1 = ft_enum t /\ ft_sizeof t1 = ft_sizeof t)
    by (unfold t1; destruct b1; cbn; auto 8).
  set (t2 := if b2 then _ else t1).
  assert (H2 : ft_skip t2 = ft_skip t1 /\ ft_order t2 = ft_order t1 /\ ft_option t2 = ft_option t1 /\
    ft_coption t2 = ft_coption t1 /\ ft_ext t2 = ft_ext t1 /\ ft_enum t2 = b2 || ft_enum t1 /\ ft_sizeof t2 = ft_sizeof t1)
    by (unfold t2; destruct b2; cbn; auto 8).
  destruct H1 as (A1 & A2 & A3 & A4 & A5 & A6 & A7), H2 as (B1 & B2 & B3 & B4 & B5 & B6 & B7).
  rewrite A1 in B1. rewrite A2 in B2. rewrite A3 in B3. rewrite A4 in B4. rewrite A5 in B5. rewrite A6 in B6.
  rewrite A7 in B7. clear A1 A2 A3 A4 A5 A6 A7. clearbody t2.
  constructor.
  - rewrite B1, orb_true_iff, Hs, Hb1. cbn [ft_skip ft0]. split.
    + intros [H|[H|(w & [<-|[<-|[]]] & H)]]; [tauto|discriminate|tauto|tauto].
    + intros [H|[H|H]]; [right; right; exists "-"; cbn; tauto|right; right; exists "skip"; cbn; tauto|tauto].
  - rewrite B3, Ho. split.
    + intros [H|(w & [<-|[<-|[]]] & H)]; [discriminate|tauto|tauto].
    + intros [H|H]; right; [exists "optional"|exists "option"]; cbn; tauto.
  - rewrite B4, Hc. split.
    + intros [H|(w & [<-|[]] & H)]; [discriminate|tauto].
    + intros H. right. exists "coption". cbn. tauto.
  - rewrite B5, He. split.
    + intros [H|(w & [<-|[]] & H)]; [discriminate|tauto].
    + intros H. right. exists "binary_extension". cbn. tauto.
  - rewrite B6, orb_true_iff, Hn, Hb2. split.
    + intros [H|[H|(w & [<-|[]] & H)]]; [tauto|discriminate|tauto].
    + intros [H|H]; [right; right; exists "enum"; cbn; tauto|tauto].
  - rewrite B2. destruct Hor as [[H ->]|[[H ->]|[H ->]]].
    + tauto.
    + split; [discriminate|]. intro H'. pose proof (last_of_unique _ _ _ _ H H'). discriminate.
    + split; [discriminate|]. intro H'. now apply last_of_none in H'.
  - intros n Hne. rewrite B7. destruct Hsz as [H|[H ->]].
    + split; [intros <-; exact H|]. intro H'. pose proof (last_of_unique _ _ _ _ H H') as Hu.
      now apply append_inj in Hu.
    + cbn [ft0 ft_sizeof]. split; [congruence|]. intro H'. now apply last_of_none in H'.
  - rewrite B7. destruct Hsz as [H|[H ->]].
    + split; [intros Hz; rewrite Hz in H; now left|]. intros [H'|H'].
      * pose proof (last_of_unique _ _ _ _ H H') as Hu. now apply (append_inj "sizeof=") in Hu.
      * now apply last_of_none in H.
    + cbn. tauto.
Qed.

(** The meaning determines the tag. *)
Lemma means_unique tag ws t t' : means tag ws t -> means tag ws t' -> t = t'.
Proof.
  intros [A1 A2 A3 A4 A5 A6 A7 A8] [B1 B2 B3 B4 B5 B6 B7 B8].
  assert (Hb : forall b b' : bool, (b = true <-> b' = true) -> b = b').
  { intros [] [] H; try reflexivity; destruct H as [H1 H2]; [now rewrite H1|now rewrite H2]. }
  destruct t as [z s o op co ex en], t' as [z' s' o' op' co' ex' en'].
  cbn [ft_skip ft_option ft_coption ft_ext ft_enum ft_order ft_sizeof] in *.
  assert (s = s') by (apply Hb; tauto). assert (op = op') by (apply Hb; tauto).
  assert (co = co') by (apply Hb; tauto). assert (ex = ex') by (apply Hb; tauto).
  assert (en = en') by (apply Hb; tauto).
  assert (o = o').
  { destruct o, o'; try reflexivity;
      [pose proof (proj2 A6 (proj1 B6 eq_refl))|pose proof (proj2 B6 (proj1 A6 eq_refl))]; congruence. }
  assert (z = z').
  { destruct (string_dec z "") as [->|Hz].
    - symmetry. now apply B8, A8.
    - symmetry. apply (B7 _ Hz), (A7 _ Hz). reflexivity. }
  congruence.
Qed.

(** Tags with the same words up to those that are not known, and up to the
    order of those that are, other than big, little and sizeof. *)
Definition flag_words : list string :=
  ["-"; "skip"; "optional"; "option"; "coption"; "binary_extension"; "enum"].
Definition is_order_word (w : string) : bool := String.eqb w "big" || String.eqb w "little".
Definition is_sizeof_word (w : string) : bool :=
  match strip_prefix "sizeof=" w with Some _ => true | None => false end.

Lemma same_fold {A} (step : A -> string -> A) (p : string -> bool) ws :
  (forall w o, p w = false -> step o w = o) -> forall o,
  fold_left step ws o = fold_left step (filter p ws) o.
Proof.
  intro H. induction ws as [|w ws IH]; intro o; [reflexivity|]. cbn [fold_left filter].
  destruct (p w) eqn:Ep; cbn [fold_left]; [apply IH|]. now rewrite H, IH.
Qed.
Lemma same_tag tag tag' ws ws' :
  words_of (tg_bin tag) ws -> words_of (tg_bin tag') ws' ->
  tg_borsh_skip tag = tg_borsh_skip tag' -> tg_borsh_enum tag = tg_borsh_enum tag' ->
  (forall w, In w flag_words -> In w ws <-> In w ws') ->
  filter is_order_word ws = filter is_order_word ws' ->
  filter is_sizeof_word ws = filter is_sizeof_word ws' ->
  parse_field_tag tag = parse_field_tag tag'.
Proof.
  intros Hw Hw' Hs He Hf Ho Hz. apply words_unique in Hw, Hw'. unfold parse_field_tag.
  rewrite Hw, Hw', Hs, He. replace (fold_left tag_word ws' ft0) with (fold_left tag_word ws ft0); [reflexivity|].
  change (after ws ft0 = after ws' ft0).
  assert (Hb : forall get names, flag_of get names -> incl names flag_words -> get (after ws ft0) = get (after ws' ft0)).
  { intros get names Hfl Hi. pose proof (fold_flag_in _ _ ws ft0 Hfl) as H1.
    pose proof (fold_flag_in _ _ ws' ft0 Hfl) as H2.
    assert (H3 : get (after ws ft0) = true <-> get (after ws' ft0) = true).
    { rewrite H1, H2. split; (intros [H|(w & Hn & H)]; [now left|right; exists w; split; [exact Hn|]]);
        apply (Hf w (Hi w Hn)); exact H. }
    destruct (get (after ws ft0)), (get (after ws' ft0)); try reflexivity; destruct H3 as [H3 H3'];
      [now rewrite H3|now rewrite H3']. }
  assert (Hin : forall l, forallb (fun w => existsb (String.eqb w) flag_words) l = true -> incl l flag_words).
  { intros l Hl w Hwl. apply (proj1 (forallb_forall _ _) Hl) in Hwl.
    apply existsb_exists in Hwl as (x & Hx & Heq). now apply String.eqb_eq in Heq as ->. }
  pose proof (Hb _ _ skip_flag (Hin ["-"; "skip"] eq_refl)). pose proof (Hb _ _ option_flag (Hin ["optional"; "option"] eq_refl)).
  pose proof (Hb _ _ coption_flag (Hin ["coption"] eq_refl)). pose proof (Hb _ _ ext_flag (Hin ["binary_extension"] eq_refl)).
  pose proof (Hb _ _ enum_flag (Hin ["enum"] eq_refl)).
  assert (ft_order (after ws ft0) = ft_order (after ws' ft0)).
  { rewrite !(fold_get _ _ word_order). rewrite (same_fold _ is_order_word ws), (same_fold _ is_order_word ws').
    - now rewrite Ho.
    - intros w o Hn. apply orb_false_iff in Hn as [K1 K2]. unfold order_word. now rewrite K1, K2.
    - intros w o Hn. apply orb_false_iff in Hn as [K1 K2]. unfold order_word. now rewrite K1, K2. }
  assert (ft_sizeof (after ws ft0) = ft_sizeof (after ws' ft0)).
  { rewrite !(fold_get _ _ word_size). rewrite (same_fold _ is_sizeof_word ws), (same_fold _ is_sizeof_word ws').
    - now rewrite Hz.
    - intros w o Hn. unfold is_sizeof_word in Hn. unfold size_word. now destruct (strip_prefix "sizeof=" w).
    - intros w o Hn. unfold is_sizeof_word in Hn. unfold size_word. now destruct (strip_prefix "sizeof=" w). }
  destruct (after ws ft0), (after ws' ft0). cbn in *. congruence.
Qed.

(** Go's == on map keys ([key_eqb]): keys that are equal are equal to the same
    keys. *)
From Verif Require Import Types TyInd.

Lemma key_eqb_same t : forall a b, key_eqb t a b = true ->
  forall c, key_eqb t a c = key_eqb t b c /\ key_eqb t c a = key_eqb t c b.
Proof.
  induction t as [t IH] using ty_strong_ind.
  destruct t as [|nm w|nm w|f| |sg| | |t|n t|t|kt vt|fs|c u|]; intros a b; cbn [key_eqb]; try discriminate.
  - destruct a; try discriminate. destruct b; try discriminate. intros H%eqb_prop c. now subst.
  - destruct a; try discriminate. destruct b; try discriminate. intros H%Z.eqb_eq c. now subst.
  - destruct a; try discriminate. destruct b; try discriminate. intros H%Z.eqb_eq c. now subst.
  - destruct a; try discriminate. destruct b; try discriminate.
    rewrite !andb_true_iff, !negb_true_iff. intros [[Ha Hb] Hk] c. apply Z.eqb_eq in Hk.
    destruct c; try easy. rewrite Ha, Hb, Hk. easy.
  - destruct a; try discriminate. destruct b; try discriminate.
    destruct (list_eq_dec _ _ _); [|discriminate]. intros _ c. now subst.
  - destruct a; try discriminate. destruct b; try discriminate. intros H%Z.eqb_eq c. now subst.
  - destruct a as [| | | | | | | | |[x|]|]; try discriminate; destruct b as [| | | | | | | | |[y|]|]; try discriminate.
    + intros H%Z.eqb_eq c. now subst.
    + easy.
  - destruct a as [| | | | |x| | | | |]; try discriminate. destruct b as [| | | | |y| | | | |]; try discriminate.
    revert y. induction x as [|a x IHx]; intros [|b y]; try discriminate; [easy|].
    rewrite andb_true_iff. intros [H1 H2] c. destruct c as [| | | | |[|c z]| | | | |]; try easy.
    destruct (IH t ltac:(cbn [ty_size]; lia) a b H1 c) as [-> ->].
    destruct (IHx y H2 (VSeq z)) as [-> ->]. easy.
  - destruct a as [| | | | | | | |x| |]; try discriminate. destruct b as [| | | | | | | |y| |]; try discriminate.
    assert (Hf : forall h u, In (h, u) fs -> forall a b, key_eqb u a b = true ->
      forall c, key_eqb u a c = key_eqb u b c /\ key_eqb u c a = key_eqb u c b).
    { intros h u Hin. apply IH. now apply (ty_size_field fs h). }
    clear IH. revert x y. induction fs as [|[h u] fs IHf]; intros [|a x] [|b y]; try discriminate; [easy|].
    cbn [fst snd]. rewrite andb_true_iff. intros [H1 H2] c. destruct c as [| | | | | | | |[|c z]| |]; try easy.
    assert (Hf' : forall h u, In (h, u) fs -> forall a b, key_eqb u a b = true ->
      forall c, key_eqb u a c = key_eqb u b c /\ key_eqb u c a = key_eqb u c b) by (intros; eapply Hf; [right|]; eauto).
    destruct (IHf Hf' x y H2 (VStruct z)) as [-> ->].
    destruct (String.eqb (f_name h) "_"); [easy|]. cbn [orb] in *.
    destruct (Hf h u (or_introl eq_refl) a b H1 c) as [-> ->]. easy.
  - intros H c'. now apply (IH u ltac:(cbn [ty_size]; lia)).
Qed.

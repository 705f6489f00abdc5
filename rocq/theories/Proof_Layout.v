(** Proofs for C66: the lines of [pprint]. *)
From Verif Require Import Base Types Lexer Printer Spec_WF Spec_Layout Proof_Print.
Local Open Scope N_scope.

Scheme Laid_mut := Minimality for Laid Sort Prop
with LaidAll_mut := Minimality for LaidAll Sort Prop.
Combined Scheme Laid_ind2 from Laid_mut, LaidAll_mut.

(** ** indentation *)
Lemma indent_app' a b : indent_nl (a ++ b) = indent_nl a ++ indent_nl b.
Proof. induction a as [|c a IH]; [reflexivity|]. cbn [app indent_nl]. destruct (N.eqb c 10); cbn [app]; now rewrite IH. Qed.
Lemma indent_flat s : ~ In 10 s -> indent_nl s = s.
Proof. intro H. rewrite <- (app_nil_r s) at 1. rewrite indent_app by auto. cbn. apply app_nil_r. Qed.
Lemma not_in_app {A} (x : A) a b : ~ In x (a ++ b) <-> ~ In x a /\ ~ In x b.
Proof. rewrite in_app_iff. tauto. Qed.
Lemma indent_NL d : indent_nl (NL d) = NL (S d).
Proof.
  unfold NL. cbn [indent_nl]. change (10 =? 10) with true. cbv iota. rewrite indent_flat.
  - replace (2 * S d)%nat with (S (S (2 * d))) by lia. reflexivity.
  - intro H. apply repeat_spec in H. discriminate.
Qed.
Lemma indent_join sep l : indent_nl (join sep l) = join (indent_nl sep) (map indent_nl l).
Proof.
  induction l as [|x [|y l] IH]; [reflexivity|reflexivity|]. cbn [join map] in *. rewrite !indent_app', IH. reflexivity.
Qed.
Lemma laid_indent_both : forall d,
  (forall s o, Laid d s o -> Laid (S d) (indent_nl s) o) /\
  (forall ss os, LaidAll d ss os -> LaidAll (S d) (map indent_nl ss) os).
Proof.
  apply (Laid_ind2 (fun d s o => Laid (S d) (indent_nl s) o) (fun d ss os => LaidAll (S d) (map indent_nl ss) os)).
  - intros d s H. rewrite indent_flat by auto. now apply LD_line.
  - intros d s o s' o' _ H1 _ H2. rewrite indent_app'. now apply LD_app.
  - intros d op cl ss os Hb _ H. rewrite !indent_app', indent_NL, indent_join, indent_app', indent_NL.
    assert (E1 : indent_nl [op] = [op] /\ indent_nl [cl] = [cl]) by (destruct Hb as [Hb|Hb]; injection Hb as -> ->; split; reflexivity).
    destruct E1 as [-> ->]. change (indent_nl $",") with ($","). apply LD_break; auto.
  - intros. constructor.
  - intros. cbn [map]. constructor; auto.
Qed.
Lemma Laid_length : forall d, (forall s o, Laid d s o -> (length o <= length s)%nat) /\
  (forall ss os, LaidAll d ss os -> (length (join $", " os) <= length (join ($"," ++ NL d) ss))%nat).
Proof.
  assert (N : forall d, (1 <= length (NL d))%nat) by (intro; unfold NL; cbn; lia).
  apply (Laid_ind2 (fun d s o => (length o <= length s)%nat) (fun d ss os => (length (join $", " os) <= length (join ($"," ++ NL d) ss))%nat)).
  - intros. lia.
  - intros. rewrite !app_length. lia.
  - intros d op cl ss os _ _ H. rewrite !app_length. change (length [op]) with 1%nat. change (length [cl]) with 1%nat. lia.
  - intros. cbn. lia.
  - intros d s o ss os H1 H2 H3 H4. destruct H3 as [|s' o' ss os H5 H6]; [exact H2|].
    change (join $", " (o :: o' :: os)) with (o ++ $", " ++ join $", " (o' :: os)).
    change (join ($"," ++ NL d) (s :: s' :: ss)) with (s ++ ($"," ++ NL d) ++ join ($"," ++ NL d) (s' :: ss)).
    rewrite !app_length. pose proof (N d). change (length $", ") with 2%nat. change (length $",") with 1%nat. lia.
Qed.

(** ** texts without newlines *)
Lemma z2s_nl z : ~ In 10 (z2s z).
Proof. apply z2s_tok. Qed.
Lemma hexdig_nl n c : ~ In 10 (hexn n c).
Proof.
  revert c. induction n as [|n IH]; intro c; cbn [hexn]; [intros []|]. apply not_in_app. split; [apply IH|].
  intros [H|[]]. unfold hexdig in H. revert H. generalize (c mod 16). intros k H. destruct (N.ltb_spec k 10); lia.
Qed.
Lemma repr_char_nl U q c : q <> 10 -> ~ In 10 (repr_char U q c).
Proof.
  intros Hq. unfold repr_char, bsl.
  destruct (N.eqb_spec c q) as [->|E1]; cbn [orb].
  { intros [H|[H|[]]]; [discriminate|congruence]. }
  destruct (N.eqb_spec c 92) as [->|E2]; [intros [H|[H|[]]]; discriminate|].
  destruct (N.eqb_spec c 9) as [->|E3]; [intros [H|[H|[]]]; discriminate|].
  destruct (N.eqb_spec c 10) as [->|E4]; [intros [H|[H|[]]]; discriminate|].
  assert (S : ~ In 10 [c]) by (intros [H|[]]; congruence).
  assert (X : forall a n, a <> 10 -> ~ In 10 (92 :: a :: hexn n c)).
  { intros a n Ha [H|[H|H]]; [discriminate|congruence|]. revert H. apply hexdig_nl. }
  destruct (N.eqb_spec c 13) as [->|E5]; [intros [H|[H|[]]]; discriminate|].
  destruct ((c <? 32) || (c =? 127)); [apply X; discriminate|]. destruct (c <? 127); auto. destruct (e_print U c); auto.
  destruct (c <? 256); [apply X; discriminate|]. destruct (c <? 65536); apply X; discriminate.
Qed.
Lemma repr_nl U s : ~ In 10 (repr_str U s).
Proof.
  unfold repr_str. assert (Q : repr_quote s <> 10) by (unfold repr_quote; destruct (_ && _); discriminate).
  intros [H|H]; [congruence|]. apply in_app_iff in H as [H|[H|[]]]; [|congruence].
  apply in_flat_map in H as [c [_ H]]. revert H. now apply repr_char_nl.
Qed.
Lemma repr_char_len U q c : (1 <= length (repr_char U q c))%nat.
Proof. unfold repr_char. repeat match goal with |- context [if ?b then _ else _] => destruct b end; cbn; lia. Qed.
Lemma repr_len U s : (length s <= length (repr_str U s))%nat.
Proof.
  unfold repr_str. cbn [length]. rewrite app_length.
  assert (G : forall q, (length s <= length (flat_map (repr_char U q) s))%nat); [|specialize (G (repr_quote s)); lia].
  intro q. induction s as [|c s IH]; cbn [flat_map length]; [lia|]. rewrite app_length. pose proof (repr_char_len U q c). lia.
Qed.
Lemma field_len U n : (length n <= length (field_name U n))%nat.
Proof. unfold field_name. destruct (isidentifier n); [lia|apply repr_len]. Qed.
Lemma join_nl sep l : ~ In 10 sep -> Forall (fun s => ~ In 10 s) l -> ~ In 10 (join sep l).
Proof.
  intros Hs H. induction H as [|x l Hx H IH]; [intros []|]. destruct l as [|y l]; cbn [join]; auto.
  apply not_in_app. split; auto. apply not_in_app. auto.
Qed.
Lemma bool_nl b : ~ In 10 (bool_str b).
Proof. destruct b; cbn; intuition discriminate. Qed.
Lemma cats_nl U c : ~ In 10 (format_categories U c).
Proof.
  unfold format_categories. rewrite !not_in_app. split; [cbn; intuition discriminate|]. split.
  - apply join_nl; [cbn; intuition discriminate|]. apply Forall_forall. intros x Hx. apply in_map_iff in Hx as [l [<- _]].
    destruct l; cbn [repr_lit]; [apply z2s_nl|apply bool_nl|apply repr_nl].
  - split; [|cbn; intuition discriminate]. destruct (Nat.ltb _ _); cbn; intuition discriminate.
Qed.

(** ** the one-line notation *)
Fixpoint one (U : uni) (t : ty) : str :=
  match t with
  | UnitsT u t' =>
      if is_DS_float64 t' then $"units[" ++ repr_str U u ++ $"]"
      else $"units[" ++ repr_str U u ++ $", " ++ one U t' ++ $"]"
  | DataShapeT _ ps => join $" * " (map (one U) ps)
  | OptionT t' => $"?" ++ one U t'
  | FunctionT ps =>
      let ss := map (one U) ps in $"(" ++ join $", " (removelast ss) ++ $") -> " ++ last ss []
  | MapT k v => $"map[" ++ one U k ++ $", " ++ one U v ++ $"]"
  | RecordT fs => [123] ++ join $", " (map (fun f => field_name U (fst f) ++ $": " ++ one U (snd f)) fs) ++ [125]
  | CategoricalT c t' o =>
      $"categorical[" ++ format_categories U c ++ $", type=" ++ one U t' ++ $", ordered=" ++ bool_str o ++ $"]"
  | TupleT ds => [40] ++ join $", " (map (one U) ds) ++ [41]
  | _ => pp U MStr t
  end.

Definition flat (s : str) : Prop := ~ In 10 s.
Lemma flat_app a b : flat a -> flat b -> flat (a ++ b).
Proof. unfold flat. intros. apply not_in_app. auto. Qed.
Lemma Tidy_child t c : Tidy t -> In c (children t) -> Tidy c.
Proof. intros H Hc u Hu. apply H. eapply Occurs_in; eauto. Qed.
Lemma flat_lit (s : str) : forallb (fun c => negb (N.eqb c 10)) s = true -> flat s.
Proof. intros H K. rewrite forallb_forall in H. apply H in K. discriminate. Qed.
Ltac fl := repeat (first [apply cats_nl|apply repr_nl|apply flat_app]); try (apply flat_lit; reflexivity); try apply repr_nl; try apply z2s_nl; try apply cats_nl; try apply bool_nl.
Lemma field_flat U n : ~ In 10 n -> flat (field_name U n).
Proof. intro H. unfold field_name. destruct (isidentifier n); [exact H|apply repr_nl]. Qed.

Lemma in_removelast {A} (l : list A) x : In x (removelast l) -> In x l.
Proof. induction l as [|y [|z l] IH]; [intros []|intros []|]. intros [->|H]; [left; auto|right; auto]. Qed.
Lemma last_in_or {A} (l : list A) d : last l d = d \/ In (last l d) l.
Proof. induction l as [|x [|y l] IH]; [left; reflexivity|right; left; reflexivity|]. cbn [last] in *. destruct IH; [left; auto|right; right; auto]. Qed.
Lemma one_flat U t : Tidy t -> flat (one U t).
Proof.
  induction t as [n i a| | | | | |z|z|u|u t IH|f e|p s|v|s|o|n ps F|t IH|ps F|k v IHk IHv|fs F|c t o IH|ds F|ts n F] using ty_ind';
    intro T; cbn [one pp]; try (apply flat_lit; reflexivity).
  - apply (T _ (Occurs_here _)).
  - destruct z; fl.
  - destruct z; fl.
  - fl.
  - assert (I : flat (one U t)) by (apply IH; eapply Tidy_child; eauto; left; reflexivity).
    destruct (is_DS_float64 t); fl. exact I.
  - destruct f; destruct (str_eqb e _); fl.
  - fl.
  - fl.
  - apply (T _ (Occurs_here _)).
  - destruct o; [|apply flat_lit; reflexivity]. apply flat_app; [apply (T _ (Occurs_here _))|apply flat_lit; reflexivity].
  - apply join_nl; [apply flat_lit; reflexivity|]. apply Forall_forall. intros x Hx. apply in_map_iff in Hx as [p [<- Hp]].
    rewrite Forall_forall in F. apply F; auto. eapply Tidy_child; eauto.
  - apply flat_app; [apply flat_lit; reflexivity|]. apply IH. eapply Tidy_child; eauto. left; reflexivity.
  - assert (G : Forall flat (map (one U) ps)).
    { apply Forall_forall. intros x Hx. apply in_map_iff in Hx as [p [<- Hp]]. rewrite Forall_forall in F. apply F; auto. eapply Tidy_child; eauto. }
    rewrite Forall_forall in G. repeat apply flat_app; try (apply flat_lit; reflexivity).
    + apply join_nl; [apply flat_lit; reflexivity|]. apply Forall_forall. intros x Hx. apply G. now apply in_removelast.
    + destruct (last_in_or (map (one U) ps) []) as [E|E]; [rewrite E; apply flat_lit; reflexivity|now apply G].
  - repeat apply flat_app; try (apply flat_lit; reflexivity).
    + apply IHk. eapply Tidy_child; eauto. left; reflexivity.
    + apply IHv. eapply Tidy_child; eauto. right; left; reflexivity.
  - repeat apply flat_app; try (apply flat_lit; reflexivity). apply join_nl; [apply flat_lit; reflexivity|].
    apply Forall_forall. intros x Hx. apply in_map_iff in Hx as [f [<- Hf]]. repeat apply flat_app; try (apply flat_lit; reflexivity).
    + apply field_flat. apply (T _ (Occurs_here _)). exact Hf.
    + rewrite Forall_forall in F. apply F; auto. eapply Tidy_child; eauto. cbn [children]. now apply in_map.
  - fl. apply IH. eapply Tidy_child; eauto. left; reflexivity.
  - repeat apply flat_app; try (apply flat_lit; reflexivity). apply join_nl; [apply flat_lit; reflexivity|].
    apply Forall_forall. intros x Hx. apply in_map_iff in Hx as [p [<- Hp]].
    rewrite Forall_forall in F. apply F; auto. eapply Tidy_child; eauto.
Qed.

(** ** the text is a layout of the one-line notation *)
Lemma Laid_flat d s : flat s -> Laid d s s.
Proof. apply LD_line. Qed.
Lemma Laid_join d sep ss os : flat sep -> Forall2 (Laid d) ss os -> Laid d (join sep ss) (join sep os).
Proof.
  intros Hs H. induction H as [|s o ss os H1 H2 IH]; [apply LD_line; intros []|].
  destruct H2 as [|s' o' ss os H3 H4]; [exact H1|].
  change (join sep (s :: s' :: ss)) with (s ++ sep ++ join sep (s' :: ss)).
  change (join sep (o :: o' :: os)) with (o ++ sep ++ join sep (o' :: os)).
  apply LD_app; auto. apply LD_app; auto. now apply LD_line.
Qed.
Lemma LaidAll_F2 d ss os : Forall2 (Laid d) ss os -> LaidAll d ss os.
Proof. induction 1; constructor; auto. Qed.
Lemma layout_laid r w op cl ss os : (op, cl) = (123, 125) \/ (op, cl) = (40, 41) -> Forall2 (Laid 0) ss os ->
  Laid 0 (layout r w op cl ss) ([op] ++ join $", " os ++ [cl]).
Proof.
  intros Hb H. assert (B : flat [op] /\ flat [cl]).
  { destruct Hb as [Hb|Hb]; injection Hb as -> ->; split; apply flat_lit; reflexivity. }
  unfold layout. destruct (_ <? _)%Z.
  - change (op :: join $", " ss ++ [cl]) with ([op] ++ join $", " ss ++ [cl]).
    apply LD_app; [apply LD_line; apply B|]. apply LD_app; [|apply LD_line; apply B]. apply Laid_join; auto. apply flat_lit; reflexivity.
  - change (op :: 10 :: join [44; 10] ss ++ [10; cl]) with ([op] ++ NL 0 ++ join ($"," ++ NL 0) ss ++ NL 0 ++ [cl]).
    rewrite !indent_app', indent_join, indent_app', !indent_NL. rewrite (indent_flat [op]), (indent_flat [cl]) by apply B.
    change (indent_nl $",") with $",". apply LD_break; auto. apply laid_indent_both. now apply LaidAll_F2.
Qed.
(* the loop over the parameters of a datashape *)
Fixpoint pp_params (U : uni) (w : Z) (acc : str) (l : list ty) : str :=
  match l with
  | [] => acc
  | x :: r => match r with [] => acc ++ pp U (MBody (Z.of_nat (length acc)) w) x | _ => pp_params U w (acc ++ pp U MStr x ++ $" * ") r end
  end.
Lemma pp_params_eq U w n ps : pp U (MPp w) (DataShapeT n ps) = pp_params U w [] ps.
Proof.
  cbn [pp]. generalize (@nil char) at 1 2 as acc. induction ps as [|x ps IH]; intro acc; [reflexivity|]. cbn [pp_params].
  destruct ps as [|y ps]; [reflexivity|]. exact (IH (acc ++ pp U MStr x ++ $" * ")).
Qed.
Lemma pp_laid U t : Tidy t -> forall m, Laid 0 (pp U m t) (one U t).
Proof.
  induction t as [n i a| | | | | |z|z|u|u t IH|f e|p s|v|s|o|n ps F|t IH|ps F|k v IHk IHv|fs F|c t o IH|ds F|ts n F] using ty_ind'; intros T m;
    try (match goal with |- Laid 0 (pp U m ?t) _ => change (pp U m t) with (one U t); apply LD_line, one_flat, T end).
  - (* Units *) assert (I : Laid 0 (pp U MStr t) (one U t)) by (apply IH; eapply Tidy_child; eauto; left; reflexivity).
    cbn [pp one]. destruct (is_DS_float64 t); [apply LD_line; fl|].
    repeat (apply LD_app; [first [exact I|apply LD_line; fl]|]). apply LD_line; fl.
  - (* DataShape *)
    assert (G : forall x m, In x ps -> Laid 0 (pp U m x) (one U x)).
    { intros x m' Hx. rewrite Forall_forall in F. apply F; auto. eapply Tidy_child; eauto. }
    assert (S : Laid 0 (join $" * " (map (pp U MStr) ps)) (join $" * " (map (one U) ps))).
    { apply Laid_join; [apply flat_lit; reflexivity|]. clear F T. induction ps as [|x ps IH]; constructor; [apply G; left; auto|].
      apply IH. intros y m' Hy. apply G. right; auto. }
    destruct n as [nm|]; [destruct (T _ (Occurs_here _))|].
    destruct m; [exact S| |exact S]. rewrite pp_params_eq. cbn [one].
    assert (H : forall acc oacc, Laid 0 acc oacc -> Laid 0 (pp_params U w acc ps) (oacc ++ join $" * " (map (one U) ps))).
    { clear S F T. induction ps as [|x ps IH]; intros acc oacc Ha; cbn [pp_params map join]; [now rewrite app_nil_r|].
      destruct ps as [|y ps].
      - cbn [map join]. apply LD_app; auto. apply G. left. auto.
      - match goal with |- Laid 0 _ ?o => replace o with ((oacc ++ one U x ++ $" * ") ++ join $" * " (map (one U) (y :: ps))) by (rewrite <- !app_assoc; reflexivity) end.
        apply IH; [intros z m' Hz; apply G; right; auto|].
        apply LD_app; auto. apply LD_app; [apply G; left; auto|]. apply LD_line, flat_lit; reflexivity. }
    exact (H [] [] (LD_line 0 [] (fun x => x))).
  - cbn [pp one]. apply LD_app; [apply LD_line, flat_lit; reflexivity|]. apply IH. eapply Tidy_child; eauto. left; auto.
  - cbn [pp one].
    assert (G : Forall2 (Laid 0) (map (pp U MStr) ps) (map (one U) ps)).
    { assert (G : forall x, In x ps -> Laid 0 (pp U MStr x) (one U x)).
      { intros x Hx. rewrite Forall_forall in F. apply F; auto. eapply Tidy_child; eauto. }
      clear F T. induction ps as [|x ps IH]; constructor; [apply G; left; auto|]. apply IH. intros; apply G; right; auto. }
    apply LD_app; [apply LD_line, flat_lit; reflexivity|]. apply LD_app; [|apply LD_app; [apply LD_line, flat_lit; reflexivity|]].
    + apply Laid_join; [apply flat_lit; reflexivity|]. clear - G. induction G as [|s o ss os H1 H2 IH]; [constructor|].
      destruct H2; cbn [removelast]; constructor; auto.
    + clear - G. induction G as [|s o ss os H1 H2 IH]; [apply LD_line; intros []|]. destruct H2; [exact H1|exact IH].
  - cbn [pp one]. assert (Ik : Laid 0 (pp U MStr k) (one U k)) by (apply IHk; eapply Tidy_child; eauto; left; reflexivity).
    assert (Iv : Laid 0 (pp U MStr v) (one U v)) by (apply IHv; eapply Tidy_child; eauto; right; left; reflexivity).
    repeat (apply LD_app; [first [exact Ik|exact Iv|apply LD_line; fl]|]). apply LD_line; fl.
  - assert (G : forall W, Forall2 (Laid 0) (map (fun f => field_name U (fst f) ++ $": " ++ pp U (MPp (W f)) (snd f)) fs)
                              (map (fun f => field_name U (fst f) ++ $": " ++ one U (snd f)) fs)).
    { intro W. assert (G : forall f, In f fs -> Laid 0 (pp U (MPp (W f)) (snd f)) (one U (snd f)) /\ flat (field_name U (fst f))).
      { intros f Hf. split; [|apply field_flat; apply (T _ (Occurs_here _)); exact Hf]. rewrite Forall_forall in F. apply F; auto.
        eapply Tidy_child; eauto. cbn [children]. now apply in_map. }
      clear F T. induction fs as [|f fs IH]; constructor.
      - apply LD_app; [apply LD_line, G; left; auto|]. apply LD_app; [apply LD_line, flat_lit; reflexivity|]. apply G. left; auto.
      - apply IH. intros g Hg. apply G. right; auto. }
    cbn [one]. cbn [pp]. destruct m as [|w|r w]; apply layout_laid; auto.
  - cbn [pp one]. assert (I : Laid 0 (pp U MStr t) (one U t)) by (apply IH; eapply Tidy_child; eauto; left; reflexivity).
    repeat (apply LD_app; [first [exact I|apply LD_line; fl]|]). apply LD_line; fl.
  - assert (G : forall m', Forall2 (Laid 0) (map (pp U m') ds) (map (one U) ds)).
    { intro m'. assert (G : forall x, In x ds -> Laid 0 (pp U m' x) (one U x)).
      { intros x Hx. rewrite Forall_forall in F. apply F; auto. eapply Tidy_child; eauto. }
      clear F T. induction ds as [|x ds IH]; constructor; [apply G; left; auto|]. apply IH. intros; apply G; right; auto. }
    cbn [one pp]. destruct m as [|w|r w]; [|apply layout_laid; auto; apply (G (MPp w))|apply layout_laid; auto; apply (G (MPp (w - r)))].
    apply LD_app; [apply LD_line, flat_lit; reflexivity|]. apply LD_app; [|apply LD_line, flat_lit; reflexivity].
    apply Laid_join; [apply flat_lit; reflexivity|]. apply (G MStr).
Qed.

(** ** what fits stays on one line *)
Definition Fit (m : mode) (n : nat) : Prop :=
  match m with
  | MStr => (Z.of_nat n < 80)%Z
  | MPp w => (Z.of_nat n < 80 /\ Z.of_nat n < w)%Z
  | MBody r w => (Z.of_nat n < 80 /\ r + Z.of_nat n < w)%Z
  end.
Lemma join_len sep l x : In x l -> (length x <= length (join sep l))%nat.
Proof.
  induction l as [|y [|z l] IH]; [intros []|intros [->|[]]; cbn; lia|].
  change (join sep (y :: z :: l)) with (y ++ sep ++ join sep (z :: l)). rewrite !app_length.
  intros [->|H]; [lia|apply IH in H; lia].
Qed.
Lemma layout_fits r w op cl l : (r + Z.of_nat (length ([op] ++ join $", " l ++ [cl])) < w)%Z ->
  layout r w op cl l = [op] ++ join $", " l ++ [cl].
Proof.
  intro H. unfold layout. change (op :: join $", " l ++ [cl]) with ([op] ++ join $", " l ++ [cl]).
  destruct (Z.ltb_spec (r + Z.of_nat (length ([op] ++ join $", " l ++ [cl]))) w); [reflexivity|lia].
Qed.
Lemma pp_params_fits U w : forall ps acc, 
  (forall x, In x ps -> forall m, Fit m (length (one U x)) -> pp U m x = one U x) ->
  (Z.of_nat (length (acc ++ join $" * " (map (one U) ps))) < 80 /\ Z.of_nat (length (acc ++ join $" * " (map (one U) ps))) < w)%Z ->
  pp_params U w acc ps = acc ++ join $" * " (map (one U) ps).
Proof.
  induction ps as [|x ps IH]; intros acc H [L1 L2]; cbn [pp_params]; [now rewrite app_nil_r|].
  destruct ps as [|y ps].
  - cbn [map join] in *. rewrite app_length in *. rewrite H; auto; [left; auto|]. cbn [Fit]. lia.
  - change (join $" * " (map (one U) (x :: y :: ps))) with (one U x ++ $" * " ++ join $" * " (map (one U) (y :: ps))) in *.
    rewrite H; [|left; auto|cbn [Fit]; rewrite !app_length in *; lia].
    rewrite IH; [now rewrite <- !app_assoc|intros; apply H; auto; right; auto|].
    rewrite !app_length in *. lia.
Qed.
Lemma pp_fits U t : Tidy t -> forall m, Fit m (length (one U t)) -> pp U m t = one U t.
Proof.
  induction t as [n i a| | | | | |z|z|u|u t IH|f e|p s|v|s|o|n ps F|t IH|ps F|k v IHk IHv|fs F|c t o IH|ds F|ts n F] using ty_ind'; intros T m H;
    try reflexivity.
  - assert (I : (Z.of_nat (length (one U t)) < 80)%Z -> pp U MStr t = one U t) by (apply (IH (Tidy_child _ _ T ltac:(left; reflexivity)) MStr)).
    cbn [pp one] in *. destruct (is_DS_float64 t); [reflexivity|]. rewrite I; [reflexivity|]. rewrite !app_length in H.
    destruct m; cbn [Fit] in H; lia.
  - assert (G : forall x, In x ps -> forall m, Fit m (length (one U x)) -> pp U m x = one U x).
    { intros x Hx. rewrite Forall_forall in F. apply F; auto. eapply Tidy_child; eauto. }
    destruct n as [nm|]; [destruct (T _ (Occurs_here _))|].
    assert (L : (Z.of_nat (length (one U (DataShapeT None ps))) < 80)%Z) by (destruct m; cbn [Fit] in H; lia).
    assert (S : join $" * " (map (pp U MStr) ps) = join $" * " (map (one U) ps)).
    { f_equal. apply map_ext_in. intros x Hx. apply G; auto. cbn [Fit]. cbn [one] in L.
      pose proof (join_len $" * " (map (one U) ps) (one U x) (in_map _ _ _ Hx)). lia. }
    destruct m; [exact S| |exact S]. rewrite pp_params_eq. cbn [one] in *. apply (pp_params_fits U w ps []); auto.
  - cbn [pp one] in *. rewrite IH; auto; [eapply Tidy_child; eauto; left; auto|]. rewrite app_length in H. destruct m; cbn [Fit] in *; lia.
  - cbn [pp one] in *.
    assert (E : map (pp U MStr) ps = map (one U) ps); [|rewrite E; reflexivity].
    apply map_ext_in. intros x Hx. rewrite Forall_forall in F. apply F; auto; [eapply Tidy_child; eauto|]. cbn [Fit].
    assert (L : (length (one U x) <= length ($"(" ++ join $", " (removelast (map (one U) ps)) ++ $") -> " ++ last (map (one U) ps) []))%nat).
    { rewrite !app_length. assert (D : In (one U x) (removelast (map (one U) ps)) \/ one U x = last (map (one U) ps) []).
      { apply (in_map (one U)) in Hx. clear - Hx. generalize dependent (one U x). generalize (map (one U) ps). clear. intros l x.
        induction l as [|y [|z l] IH]; [intros []|intros [->|[]]; right; reflexivity|].
        intros [->|H]; [left; left; reflexivity|]. apply IH in H as [H|H]; [left; right; exact H|right; exact H]. }
      destruct D as [D|D]; [apply (join_len $", ") in D; lia|rewrite D; lia]. }
    destruct m; cbn [Fit] in H; lia.
  - cbn [pp one] in *. rewrite !app_length in H.
    rewrite (IHk (Tidy_child _ _ T ltac:(left; reflexivity)) MStr), (IHv (Tidy_child _ _ T ltac:(right; left; reflexivity)) MStr); [reflexivity| |];
      destruct m; cbn [Fit] in *; lia.
  - cbn [one] in H. set (ones := map (fun f => field_name U (fst f) ++ $": " ++ one U (snd f)) fs) in *.
    assert (L : forall f, In f fs -> (length (fst f) + length (one U (snd f)) + 4 <= length ([123%N] ++ join $", " ones ++ [125%N]))%nat).
    { intros f Hf. assert (I : In (field_name U (fst f) ++ $": " ++ one U (snd f)) ones) by (unfold ones; apply in_map_iff; exists f; auto).
      apply (join_len $", ") in I. rewrite !app_length in *. change (length $": ") with 2%nat in I. cbn [length]. pose proof (field_len U (fst f)). lia. }
    assert (G : forall W : str * ty -> Z, (forall f, In f fs -> (Z.of_nat (length (one U (snd f))) < 80 /\ Z.of_nat (length (one U (snd f))) < W f)%Z) ->
      map (fun f => field_name U (fst f) ++ $": " ++ pp U (MPp (W f)) (snd f)) fs = ones).
    { intros W HW. unfold ones. apply map_ext_in. intros f Hf. f_equal. f_equal. rewrite Forall_forall in F. apply F; auto.
      - eapply Tidy_child; eauto. cbn [children]. now apply in_map.
      - cbn [Fit]. auto. }
    cbn [pp one]. fold ones.
    destruct m as [|w|r w]; cbn [Fit] in H.
    + rewrite (G (fun f => (80 - 0 - Z.of_nat (length (fst f)))%Z)) by (intros f Hf; specialize (L f Hf); lia). apply layout_fits. lia.
    + rewrite (G (fun f => (w - 0 - Z.of_nat (length (fst f)))%Z)) by (intros f Hf; specialize (L f Hf); lia). apply layout_fits. lia.
    + rewrite (G (fun f => (w - r - Z.of_nat (length (fst f)))%Z)) by (intros f Hf; specialize (L f Hf); lia). apply layout_fits. lia.
  - cbn [pp one] in *. rewrite IH; auto; [eapply Tidy_child; eauto; left; auto|]. rewrite !app_length in H. destruct m; cbn [Fit] in *; lia.
  - cbn [one] in H.
    assert (L : forall x, In x ds -> (length (one U x) + 2 <= length ([40%N] ++ join $", " (map (one U) ds) ++ [41%N]))%nat).
    { intros x Hx. apply (in_map (one U)) in Hx. apply (join_len $", ") in Hx. rewrite !app_length. cbn [length]. lia. }
    assert (G : forall m', (forall x, In x ds -> Fit m' (length (one U x))) -> map (pp U m') ds = map (one U) ds).
    { intros m' Hm. apply map_ext_in. intros x Hx. rewrite Forall_forall in F. apply F; auto. eapply Tidy_child; eauto. }
    cbn [pp one]. destruct m as [|w|r w]; cbn [Fit] in H.
    + rewrite (G MStr) by (intros x Hx; specialize (L x Hx); cbn [Fit]; lia). reflexivity.
    + rewrite (G (MPp w)) by (intros x Hx; specialize (L x Hx); cbn [Fit]; lia). apply layout_fits. lia.
    + rewrite (G (MPp (w - r))) by (intros x Hx; specialize (L x Hx); cbn [Fit]; lia). apply layout_fits. lia.
Qed.

(** ** what does not fit is broken *)
Lemma layout_breaks r w op cl ss os : (op, cl) = (123, 125) \/ (op, cl) = (40, 41) -> Forall2 (Laid 0) ss os ->
  (w <= r + Z.of_nat (length ([op] ++ join $", " os ++ [cl])))%Z -> In 10 (layout r w op cl ss).
Proof.
  intros Hb F H.
  assert (L : (length ([op] ++ join $", " os ++ [cl]) <= length ([op] ++ join $", " ss ++ [cl]))%nat).
  { rewrite !app_length. assert (K : Laid 0 (join $", " ss) (join $", " os)) by (apply Laid_join; auto; apply flat_lit; reflexivity).
    apply Laid_length in K. lia. }
  unfold layout. change (op :: join $", " ss ++ [cl]) with ([op] ++ join $", " ss ++ [cl]).
  destruct (Z.ltb_spec (r + Z.of_nat (length ([op] ++ join $", " ss ++ [cl]))) w); [lia|].
  change (op :: 10 :: join [44; 10] ss ++ [10; cl]) with ([op] ++ [10] ++ join [44; 10] ss ++ [10; cl]).
  rewrite !indent_app'. apply in_or_app. right. left. reflexivity.
Qed.
Definition isRT (t : ty) : Prop := (exists fs, t = RecordT fs) \/ (exists l, t = TupleT l).
Lemma body_breaks U t : Tidy t -> isRT t -> forall r w, (w <= r + Z.of_nat (length (one U t)))%Z ->
  In 10 (pp U (MBody r w) t).
Proof.
  intros T [[fs ->]|[l ->]] r w H; cbn [pp one] in *; (eapply layout_breaks; [auto| |exact H]).
  - assert (G : forall f, In f fs -> Laid 0 (field_name U (fst f) ++ $": " ++ pp U (MPp (w - r - Z.of_nat (length (fst f)))) (snd f))
                                      (field_name U (fst f) ++ $": " ++ one U (snd f))).
    { intros f Hf. apply LD_app; [apply LD_line, field_flat; apply (T _ (Occurs_here _)); exact Hf|].
      apply LD_app; [apply LD_line, flat_lit; reflexivity|]. apply pp_laid. eapply Tidy_child; eauto. cbn [children]. now apply in_map. }
    clear T H. induction fs as [|f fs IH]; constructor; [apply G; left; auto|]. apply IH. intros; apply G; right; auto.
  - assert (G : forall x, In x l -> Laid 0 (pp U (MPp (w - r)) x) (one U x)).
    { intros x Hx. apply pp_laid. eapply Tidy_child; eauto. }
    clear T H. induction l as [|x l IH]; constructor; [apply G; left; auto|]. apply IH. intros; apply G; right; auto.
Qed.
Lemma pp_body0 U t w : isRT t -> pp U (MPp w) t = pp U (MBody 0 w) t.
Proof. intros [[fs ->]|[l ->]]; cbn [pp]; [reflexivity|]. now rewrite Z.sub_0_r. Qed.
Lemma params_breaks U w t : forall ds acc oacc, isRT t -> Tidy t -> (forall x, In x ds -> Tidy x) -> (length oacc <= length acc)%nat ->
  (w <= Z.of_nat (length (oacc ++ join $" * " (map (one U) (ds ++ [t])))))%Z -> In 10 (pp_params U w acc (ds ++ [t])).
Proof.
  induction ds as [|x ds IH]; intros acc oacc HR T TD L H.
  - cbn [app map join pp_params] in *. rewrite app_length in H. apply in_or_app. right. apply body_breaks; auto. lia.
  - assert (X : exists y r, ds ++ [t] = y :: r) by (destruct ds; eexists _, _; reflexivity).
    cbn [app pp_params]. destruct X as [y [r X]]. rewrite X. rewrite <- X. 
    apply (IH (acc ++ pp U MStr x ++ $" * ") (oacc ++ one U x ++ $" * ")); auto; [intros; apply TD; right; auto| |].
    + rewrite !app_length. pose proof (proj1 (Laid_length 0) _ _ (pp_laid U x (TD x ltac:(left; reflexivity)) MStr)). lia.
    + cbn [app map] in H. rewrite X in H. cbn [map] in H. rewrite X. cbn [map].
      change (join $" * " (one U x :: one U y :: map (one U) r)) with (one U x ++ $" * " ++ join $" * " (one U y :: map (one U) r)) in H.
      rewrite <- !app_assoc. exact H.
Qed.
Lemma pprint_breaks U t w : Tidy t -> Breakable t -> (w <= Z.of_nat (length (one U t)))%Z -> In 10 (pprint U t w).
Proof.
  intros T B H. unfold pprint. destruct B as [fs|l|n ds t HR].
  - rewrite pp_body0 by (left; eauto). apply body_breaks; auto. left; eauto.
  - rewrite pp_body0 by (right; eauto). apply body_breaks; auto. right; eauto.
  - rewrite pp_params_eq. apply (params_breaks U w t ds [] []); auto.
    + eapply Tidy_child; eauto. cbn [children]. apply in_or_app. right. left. reflexivity.
    + intros x Hx. eapply Tidy_child; eauto. cbn [children]. apply in_or_app. left. exact Hx.
Qed.

(** The regular-expression lexer equals a direct scanner. *)
From Verif Require Import Base Lexer.
Local Open Scope N_scope.

(** ** A direct scanner *)
Fixpoint scan_body (q : char) (s : str) : option str :=
  match s with
  | [] => None
  | c :: r =>
      if N.eqb c q then Some r
      else if N.eqb c bsl then
        match r with
        | e :: r1 =>
            if one_of (q :: $"bfnrt") e then scan_body q r1
            else if N.eqb e 117 then
              match r1 with
              | h1 :: h2 :: h3 :: h4 :: r2 =>
                  if is_hex h1 && is_hex h2 && is_hex h3 && is_hex h4
                  then scan_body q r2 else None
              | _ => None
              end
            else None
        | [] => None
        end
      else if N.eqb c 10 || N.eqb c 13 then None
      else scan_body q r
  end.

Fixpoint starts (p s : str) : option str :=
  match p, s with
  | [], _ => Some s
  | a :: p', c :: s' => if N.eqb a c then starts p' s' else None
  | _ :: _, [] => None
  end.

Definition scan_int (s : str) : option str :=
  match s with
  | [] => None
  | c :: r =>
      if N.eqb c 48 then
        match r with d :: _ => if is_digit d then None else Some r | [] => Some r end
      else if is_digit19 c then Some (drop_while is_digit r)
      else if N.eqb c 45 then
        match r with
        | d :: r' => if is_digit19 d then Some (drop_while is_digit r') else None
        | [] => None
        end
      else None
  end.

Definition single_tokens : list (char * kind) :=
  [ (42, KAst); (44, KComma); (61, KEq); (58, KColon); (91, KLBk); (93, KRBk);
    (123, KLBc); (125, KRBc); (40, KLP); (41, KRP); (63, KQ) ].
Fixpoint assocN {A} (c : N) (l : list (N * A)) : option A :=
  match l with
  | [] => None
  | (d, k) :: r => if N.eqb c d then Some k else assocN c r
  end.

Definition scan (s : str) : option (kind * str) :=
  match s with
  | [] => None
  | c :: r =>
      match starts $"True" s, starts $"False" s with
      | Some t, _ => Some (KBool, t)
      | None, Some t => Some (KBool, t)
      | None, None =>
          if is_lower c then Some (KLower, drop_while is_name_char r)
          else if is_upper c then Some (KUpper, drop_while is_name_char r)
          else if N.eqb c 95 then Some (KOther, drop_while is_name_char r)
          else match assocN c single_tokens with
               | Some k => Some (k, r)
               | None =>
                   match starts $"..." s, starts $"->" s with
                   | Some t, _ => Some (KEll, t)
                   | None, Some t => Some (KArrow, t)
                   | None, None =>
                       match scan_int s with
                       | Some t => Some (KInt, t)
                       | None =>
                           if N.eqb c dq then option_map (fun t => (KStr, t)) (scan_body dq r)
                           else if N.eqb c sq then option_map (fun t => (KStr, t)) (scan_body sq r)
                           else None
                       end
                   end
               end
      end
  end.

Definition hd_opt {A} (l : list A) : option A := match l with x :: _ => Some x | [] => None end.

Lemma rmatch_lit p s : p <> [] -> rmatch (lit p) s = match starts p s with Some t => [t] | None => [] end.
Proof.
  revert s; induction p as [|a p IH]; intros s Hp; [congruence|].
  destruct p as [|b p].
  - simpl. destruct s as [|c s]; [reflexivity|]. unfold is_c. destruct (a =? c); reflexivity.
  - cbn [lit rmatch]. destruct s as [|c s]; [reflexivity|]. cbn [ch rmatch starts].
    unfold is_c. destruct (a =? c); [|reflexivity]. cbn [flat_map]. rewrite app_nil_r.
    rewrite IH by discriminate. reflexivity.
Qed.

Lemma star_chr p n : forall s, (length s <= n)%nat ->
  exists l, star_iter (rmatch (RChr p)) n s = drop_while p s :: l.
Proof.
  induction n as [|n IH]; intros s Hn.
  - destruct s; simpl in *; [eauto|lia].
  - destruct s as [|c s]; [simpl; eauto|]. cbn [star_iter drop_while].
    change (rmatch (RChr p) (c :: s)) with (if p c then [s] else []).
    destruct (p c).
    + cbn [flat_map]. replace (Nat.ltb (length s) (length (c :: s))) with true
        by (symmetry; apply Nat.ltb_lt; simpl; lia).
      destruct (IH s) as [l ->]; [simpl in Hn; lia|]. simpl. eauto.
    + simpl. eauto.
Qed.

Lemma rmatch_name p s :
  hd_opt (rmatch (RSeq (RChr p) (RStar (RChr is_name_char))) s)
  = match s with c :: r => if p c then Some (drop_while is_name_char r) else None | [] => None end.
Proof.
  destruct s as [|c s]; [reflexivity|]. cbn [rmatch]. destruct (p c); [|reflexivity].
  cbn [flat_map]. destruct (star_chr is_name_char (length s) s (Nat.le_refl _)) as [l E].
  cbn [rmatch] in E. rewrite E. reflexivity.
Qed.

Lemma digits_star s : exists l, rmatch (RStar (RChr is_digit)) s = drop_while is_digit s :: l.
Proof. exact (star_chr is_digit (length s) s (Nat.le_refl _)). Qed.

Lemma rmatch_int19 s :
  hd_opt (rmatch (RSeq (RChr is_digit19) (RStar (RChr is_digit))) s)
  = match s with c :: r => if is_digit19 c then Some (drop_while is_digit r) else None | [] => None end.
Proof.
  destruct s as [|c s]; [reflexivity|]. cbn [rmatch]. destruct (is_digit19 c); [|reflexivity].
  cbn [flat_map]. destruct (digits_star s) as [l E]. cbn [rmatch] in E. rewrite E. reflexivity.
Qed.

Lemma hd_opt_app {A} (l m : list A) : hd_opt (l ++ m) = match hd_opt l with Some x => Some x | None => hd_opt m end.
Proof. destruct l; reflexivity. Qed.

Definition int_re : re :=
  RAlt (RSeq (ch 48) (RNotAhead (RChr is_digit)))
       (RSeq (opt (ch 45)) (RSeq (RChr is_digit19) (RStar (RChr is_digit)))).

Lemma rmatch_RSeq a b s : rmatch (RSeq a b) s = flat_map (rmatch b) (rmatch a s).
Proof. reflexivity. Qed.
Lemma rmatch_RAlt a b s : rmatch (RAlt a b) s = rmatch a s ++ rmatch b s.
Proof. reflexivity. Qed.
Lemma rmatch_RChr p c s : rmatch (RChr p) (c :: s) = if p c then [s] else [].
Proof. reflexivity. Qed.

Lemma rmatch_int s : hd_opt (rmatch int_re s) = scan_int s.
Proof.
  unfold int_re, opt. destruct s as [|c s]; [reflexivity|].
  rewrite rmatch_RAlt, hd_opt_app, !rmatch_RSeq, rmatch_RAlt.
  rewrite flat_map_app, hd_opt_app. unfold ch. rewrite !rmatch_RChr. unfold is_c. cbn [scan_int].
  rewrite (N.eqb_sym 48 c), (N.eqb_sym 45 c).
  assert (G : forall l, flat_map (rmatch (RSeq (RChr is_digit19) (RStar (RChr is_digit)))) [l]
             = rmatch (RSeq (RChr is_digit19) (RStar (RChr is_digit))) l).
  { intro l. cbn [flat_map]. now rewrite app_nil_r. }
  change (rmatch REps (c :: s)) with [c :: s]. rewrite (G (c :: s)), rmatch_int19.
  destruct (c =? 48) eqn:E48.
  - apply N.eqb_eq in E48; subst c. cbn [flat_map]. rewrite app_nil_r.
    change (48 =? 45) with false. cbv iota. cbn [flat_map hd_opt].
    change (is_digit19 48) with false. cbv iota.
    destruct s as [|d s]; [reflexivity|]. cbn [rmatch].
    destruct (is_digit d) eqn:Ed; reflexivity.
  - cbn [flat_map hd_opt].
    destruct (c =? 45) eqn:E45.
    + apply N.eqb_eq in E45; subst c. rewrite (G s), rmatch_int19.
      change (is_digit19 45) with false. cbv iota. destruct s as [|d s]; [reflexivity|].
      destruct (is_digit19 d); reflexivity.
    + cbn [flat_map hd_opt]. destruct (is_digit19 c); reflexivity.
Qed.

Lemma rep4 s : rmatch (rep 4 (RChr is_hex)) s
  = match s with
    | a :: b :: c :: d :: r => if is_hex a && is_hex b && is_hex c && is_hex d then [r] else []
    | _ => []
    end.
Proof.
  cbn [rep rmatch].
  destruct s as [|a s]; [reflexivity|].
  destruct (is_hex a); [|destruct s as [|b [|c [|d s]]]; reflexivity].
  cbn [flat_map]. rewrite app_nil_r.
  destruct s as [|b s]; [reflexivity|].
  destruct (is_hex b); [|destruct s as [|c [|d s]]; reflexivity].
  cbn [flat_map]. rewrite app_nil_r.
  destruct s as [|c s]; [reflexivity|].
  destruct (is_hex c); [|destruct s as [|d s]; reflexivity].
  cbn [flat_map]. rewrite app_nil_r.
  destruct s as [|d s]; [reflexivity|]. destruct (is_hex d); reflexivity.
Qed.

(** the item pattern matches in at most one way *)
Definition item_scan (q : char) (s : str) : option str :=
  match s with
  | [] => None
  | c :: r =>
      if N.eqb c q then None
      else if N.eqb c bsl then
        match r with
        | e :: r1 =>
            if one_of (q :: $"bfnrt") e then Some r1
            else if N.eqb e 117 then
              match r1 with
              | h1 :: h2 :: h3 :: h4 :: r2 =>
                  if is_hex h1 && is_hex h2 && is_hex h3 && is_hex h4 then Some r2 else None
              | _ => None
              end
            else None
        | [] => None
        end
      else if N.eqb c 10 || N.eqb c 13 then None
      else Some r
  end.

Lemma rmatch_item q s : q = dq \/ q = sq ->
  rmatch (str_item q) s = match item_scan q s with Some t => [t] | None => [] end.
Proof.
  intro Hq. unfold str_item. cbn [rmatch].
  destruct s as [|c s]; [reflexivity|]. cbn [item_scan]. unfold ch. cbn [rmatch]. unfold is_c.
  rewrite (N.eqb_sym bsl c).
  assert (L : flat_map (rmatch (rep 4 (RChr is_hex))) (rmatch (lit [bsl; 117]) (c :: s))
              = if c =? bsl then match s with
                   | e :: r1 => if e =? 117 then rmatch (rep 4 (RChr is_hex)) r1 else []
                   | [] => [] end else []).
  { rewrite rmatch_lit by discriminate. cbn [starts]. rewrite (N.eqb_sym bsl c).
    destruct (c =? bsl); [|reflexivity]. destruct s as [|e r1]; [reflexivity|].
    rewrite (N.eqb_sym 117 e). destruct (e =? 117); [|reflexivity]. cbn [flat_map]. now rewrite app_nil_r. }
  rewrite L. clear L.
  destruct (c =? q) eqn:Eq.
  - apply N.eqb_eq in Eq; subst c. cbn [orb negb].
    destruct Hq as [->| ->]; reflexivity.
  - destruct (c =? bsl) eqn:Eb.
    + rewrite !orb_true_r. cbn [negb app flat_map].
      destruct s as [|e r1]; [reflexivity|].
      destruct (one_of (q :: $ "bfnrt") e) eqn:Eo.
      * destruct (e =? 117) eqn:E117.
        { apply N.eqb_eq in E117; subst e. destruct Hq as [->| ->]; discriminate. }
        reflexivity.
      * cbn [app]. rewrite app_nil_r. destruct (e =? 117); [|reflexivity].
        rewrite rep4. destruct r1 as [|a [|b [|d [|f r2]]]]; try reflexivity.
        destruct (is_hex a && is_hex b && is_hex d && is_hex f); reflexivity.
    + rewrite !orb_false_r, orb_false_l. destruct ((c =? 10) || (c =? 13)); reflexivity.
Qed.

Lemma item_scan_shorter q s t : item_scan q s = Some t -> (length t < length s)%nat.
Proof.
  destruct s as [|c s]; [discriminate|]. cbn [item_scan].
  destruct (c =? q); [discriminate|]. destruct (c =? bsl).
  - destruct s as [|e r1]; [discriminate|].
    destruct (one_of (q :: $ "bfnrt") e).
    + intro H; inversion H; subst; simpl; lia.
    + destruct (e =? 117); [|discriminate].
      destruct r1 as [|a [|b [|d [|f r2]]]]; try discriminate.
      destruct (is_hex a && is_hex b && is_hex d && is_hex f); [|discriminate].
      intro H; inversion H; subst; simpl; lia.
  - destruct ((c =? 10) || (c =? 13)); [discriminate|]. intro H; inversion H; subst; simpl; lia.
Qed.

Lemma scan_body_unfold q s :
  scan_body q s = match s with
                  | c :: r => if N.eqb c q then Some r
                              else match item_scan q s with Some t => scan_body q t | None => None end
                  | [] => None
                  end.
Proof.
  destruct s as [|c s]; [reflexivity|]. cbn [scan_body item_scan].
  destruct (c =? q); [reflexivity|]. destruct (c =? bsl).
  - destruct s as [|e r1]; [reflexivity|].
    destruct (one_of (q :: $ "bfnrt") e); [reflexivity|].
    destruct (e =? 117); [|reflexivity].
    destruct r1 as [|a [|b [|d [|f r2]]]]; try reflexivity.
    destruct (is_hex a && is_hex b && is_hex d && is_hex f); reflexivity.
  - destruct ((c =? 10) || (c =? 13)); reflexivity.
Qed.

Lemma body_match q n : q = dq \/ q = sq -> forall s, (length s <= n)%nat ->
  flat_map (rmatch (ch q)) (star_iter (rmatch (str_item q)) n s)
  = match scan_body q s with Some t => [t] | None => [] end.
Proof.
  intro Hq. induction n as [|n IH]; intros s Hn.
  - destruct s; [reflexivity|simpl in Hn; lia].
  - cbn [star_iter]. rewrite flat_map_app, rmatch_item by assumption.
    rewrite scan_body_unfold. destruct s as [|c s]; [reflexivity|].
    destruct (item_scan q (c :: s)) as [t|] eqn:Ei.
    + assert (Hne : (c =? q) = false).
      { cbn [item_scan] in Ei. destruct (c =? q); [discriminate|reflexivity]. }
      rewrite Hne. pose proof (item_scan_shorter _ _ _ Ei) as Hl.
      cbn [flat_map]. apply Nat.ltb_lt in Hl as Hl'. rewrite Hl'. rewrite app_nil_r.
      rewrite IH by (simpl in *; lia).
      unfold ch. cbn [rmatch]. unfold is_c. rewrite (N.eqb_sym q c), Hne. simpl. now rewrite app_nil_r.
    + cbn [flat_map]. unfold ch. cbn [rmatch]. unfold is_c. rewrite (N.eqb_sym q c).
      destruct (c =? q); reflexivity.
Qed.

Lemma rmatch_str q s : q = dq \/ q = sq ->
  rmatch (str_re q) s = match s with
                        | c :: r => if N.eqb c q then match scan_body q r with Some t => [t] | None => [] end else []
                        | [] => []
                        end.
Proof.
  intro Hq. destruct s as [|c s]; [reflexivity|]. unfold str_re, ch at 1. cbn [rmatch]. unfold is_c.
  rewrite (N.eqb_sym q c). destruct (c =? q); [|reflexivity]. cbn [flat_map]. rewrite app_nil_r.
  now apply body_match.
Qed.

(** first_match steps *)
Lemma first_match_cons k r tbl s :
  first_match ((k, r) :: tbl) s = match hd_opt (rmatch r s) with Some t => Some (k, t) | None => first_match tbl s end.
Proof. cbn [first_match]. destruct (rmatch r s); reflexivity. Qed.

Lemma hd_lit p s : p <> [] -> hd_opt (rmatch (lit p) s) = starts p s.
Proof. intro H. rewrite rmatch_lit by exact H. destruct (starts p s); reflexivity. Qed.

(** a one-character token *)
Lemma first_match_single a k p tbl c s : p = [a] ->
  first_match ((k, lit p) :: tbl) (c :: s) = if N.eqb c a then Some (k, s) else first_match tbl (c :: s).
Proof.
  intros ->.
  rewrite first_match_cons, hd_lit by discriminate. cbn [starts]. rewrite (N.eqb_sym a c).
  destruct (c =? a); reflexivity.
Qed.

Theorem first_match_scan s : first_match token_table s = scan s.
Proof.
  destruct s as [|c s]; [reflexivity|].
  unfold token_table. cbn [scan].
  rewrite first_match_cons. cbn [rmatch]. rewrite hd_opt_app, !hd_lit by discriminate.
  destruct (starts $ "True" (c :: s)) as [t|] eqn:ET; [reflexivity|].
  destruct (starts $ "False" (c :: s)) as [t|] eqn:EF; [reflexivity|].
  rewrite first_match_cons, rmatch_name. destruct (is_lower c) eqn:El; [reflexivity|].
  rewrite first_match_cons, rmatch_name. destruct (is_upper c) eqn:Eu; [reflexivity|].
  rewrite first_match_cons. unfold ch at 1. rewrite rmatch_name. unfold is_c.
  rewrite (N.eqb_sym 95 c). destruct (c =? 95) eqn:Eund; [reflexivity|].
  clear ET EF El Eu Eund.
  unfold single_tokens. cbn [assocN].
  rewrite (first_match_single 42) by reflexivity. destruct (c =? 42); [reflexivity|].
  rewrite (first_match_single 44) by reflexivity. destruct (c =? 44); [reflexivity|].
  rewrite (first_match_single 61) by reflexivity. destruct (c =? 61); [reflexivity|].
  rewrite (first_match_single 58) by reflexivity. destruct (c =? 58); [reflexivity|].
  rewrite (first_match_single 91) by reflexivity. destruct (c =? 91); [reflexivity|].
  rewrite (first_match_single 93) by reflexivity. destruct (c =? 93); [reflexivity|].
  rewrite (first_match_single 123) by reflexivity. destruct (c =? 123); [reflexivity|].
  rewrite (first_match_single 125) by reflexivity. destruct (c =? 125); [reflexivity|].
  rewrite (first_match_single 40) by reflexivity. destruct (c =? 40); [reflexivity|].
  rewrite (first_match_single 41) by reflexivity. destruct (c =? 41); [reflexivity|].
  rewrite first_match_cons, hd_lit by discriminate.
  rewrite first_match_cons, hd_lit by discriminate.
  rewrite (first_match_single 63) by reflexivity.
  rewrite first_match_cons. fold int_re. rewrite rmatch_int.
  rewrite first_match_cons. cbn [rmatch]. rewrite hd_opt_app, !rmatch_str by auto.
  destruct (c =? 63) eqn:E63.
  { apply N.eqb_eq in E63; subst c. reflexivity. }
  destruct (starts $ "..." (c :: s)); [reflexivity|].
  destruct (starts $ "->" (c :: s)); [reflexivity|].
  destruct (scan_int (c :: s)); [reflexivity|].
  destruct (c =? dq) eqn:Ed.
  - apply N.eqb_eq in Ed; subst c. change (dq =? sq) with false. cbv iota.
    destruct (scan_body dq s); reflexivity.
  - destruct (c =? sq); [|reflexivity]. destruct (scan_body sq s); reflexivity.
Qed.

(** ** Whitespace and comments *)
Fixpoint ws_go (in_comment : bool) (s : str) : str :=
  match s with
  | [] => []
  | c :: r =>
      if in_comment then (if N.eqb c 10 then ws_go false r else ws_go true r)
      else if is_space c then ws_go false r
      else if N.eqb c 35 then ws_go true r
      else s
  end.
Definition ws (s : str) : str := ws_go false s.

Definition not_nl (c : N) : bool := negb (N.eqb c 10).

Lemma ws_comment s : ws_go true s = ws_go false (drop_while not_nl s).
Proof.
  induction s as [|c s IH]; [reflexivity|]. cbn [ws_go drop_while]. unfold not_nl at 1.
  destruct (c =? 10) eqn:E; cbn [negb].
  - apply N.eqb_eq in E; subst c. reflexivity.
  - exact IH.
Qed.

Lemma star_notnl_eol n : forall s, (length s <= n)%nat ->
  exists l, flat_map (rmatch REol) (star_iter (rmatch (RChr not_nl)) n s) = drop_while not_nl s :: l.
Proof.
  intros s Hn. destruct (star_chr not_nl n s Hn) as [l E]. rewrite E. cbn [flat_map rmatch].
  assert (at_eol (drop_while not_nl s) = true) as ->.
  { clear. induction s as [|c s IH]; [reflexivity|]. cbn [drop_while]. unfold not_nl at 1.
    destruct (c =? 10) eqn:E; cbn [negb]; [exact E|exact IH]. }
  eexists. reflexivity.
Qed.

Lemma drop_while_length p s : (length (drop_while p s) <= length s)%nat.
Proof. induction s as [|c s IH]; simpl; [lia|]. destruct (p c); simpl; lia. Qed.

Definition ws_item : re :=
  RAlt (RChr is_space) (RSeq (ch 35) (RSeq (RStar (RChr (fun c => negb (N.eqb c 10)))) REol)).

Lemma ws_item_head c s :
  hd_opt (rmatch ws_item (c :: s))
  = if is_space c then Some s
    else if N.eqb c 35 then Some (drop_while not_nl s) else None.
Proof.
  unfold ws_item. rewrite rmatch_RAlt, hd_opt_app, rmatch_RChr, rmatch_RSeq.
  destruct (is_space c); [reflexivity|]. cbn [hd_opt].
  unfold ch. rewrite rmatch_RChr. unfold is_c. rewrite (N.eqb_sym 35 c).
  destruct (c =? 35); [|reflexivity]. cbn [flat_map]. rewrite app_nil_r, rmatch_RSeq.
  destruct (star_notnl_eol (length s) s (Nat.le_refl _)) as [l E].
  change (rmatch (RStar (RChr (fun c => negb (N.eqb c 10)))) s)
    with (star_iter (rmatch (RChr not_nl)) (length s) s).
  rewrite E. reflexivity.
Qed.

Lemma star_iter_nonempty m n s : exists x l, star_iter m n s = x :: l.
Proof.
  destruct n; [simpl; eauto|]. cbn [star_iter].
  match goal with |- exists x l, ?a ++ [s] = _ => destruct a; simpl; eauto end.
Qed.

Lemma ws_star n : forall s, (length s <= n)%nat -> hd_opt (star_iter (rmatch ws_item) n s) = Some (ws s).
Proof.
  induction n as [|n IH]; intros s Hn.
  - destruct s; [reflexivity|simpl in Hn; lia].
  - destruct s as [|c s]; [reflexivity|].
    assert (G : forall t, hd_opt (rmatch ws_item (c :: s)) = Some t -> (length t <= length s)%nat ->
       hd_opt (star_iter (rmatch ws_item) (S n) (c :: s)) = Some (ws t)).
    { intros t Ht Hl. cbn [star_iter]. destruct (rmatch ws_item (c :: s)) as [|t' l]; [discriminate|].
      cbn [hd_opt] in Ht. inversion Ht; subst t'. cbn [flat_map].
      replace (Nat.ltb (length t) (length (c :: s))) with true by (symmetry; apply Nat.ltb_lt; simpl; lia).
      specialize (IH t). simpl in Hn. rewrite <- IH by lia.
      destruct (star_iter_nonempty (rmatch ws_item) n t) as [x [l' E]]. rewrite E. reflexivity. }
    pose proof (ws_item_head c s) as Hh.
    assert (Hw : ws (c :: s) = if is_space c then ws s else if N.eqb c 35 then ws_go true s else c :: s) by reflexivity.
    rewrite Hw. clear Hw.
    destruct (is_space c) eqn:Es.
    + apply G; auto.
    + destruct (c =? 35) eqn:E35.
      * rewrite ws_comment. apply G; auto. apply drop_while_length.
      * cbn [star_iter]. destruct (rmatch ws_item (c :: s)); [reflexivity|discriminate].
Qed.

Theorem skip_ws_ws s : skip_ws s = ws s.
Proof.
  unfold skip_ws. change (rmatch whitespace_re s) with (star_iter (rmatch ws_item) (length s) s).
  pose proof (ws_star (length s) s (Nat.le_refl _)) as H.
  destruct (star_iter (rmatch ws_item) (length s) s); [discriminate|]. cbn [hd_opt] in H. congruence.
Qed.

Lemma ws_go_suffix b s : exists p, s = p ++ ws_go b s.
Proof.
  revert b; induction s as [|c s IH]; intro b; [exists []; reflexivity|]. cbn [ws_go].
  destruct b; [destruct (c =? 10)|destruct (is_space c); [|destruct (c =? 35)]];
    try (match goal with |- context [ws_go ?b s] => destruct (IH b) as [p E] end; exists (c :: p); simpl; congruence).
  exists []; reflexivity.
Qed.
Lemma ws_idem s : ws (ws s) = ws s.
Proof.
  unfold ws. assert (H : forall b, ws_go false (ws_go b s) = ws_go b s).
  { induction s as [|c s IH]; intro b; [reflexivity|]. cbn [ws_go].
    destruct b; [destruct (c =? 10); apply IH|].
    destruct (is_space c) eqn:E1; [apply IH|]. destruct (c =? 35) eqn:E2; [apply IH|].
    cbn [ws_go]. rewrite E1, E2. reflexivity. }
  apply H.
Qed.

(** tokens are non-empty prefixes *)
Lemma starts_app p s t : starts p s = Some t -> s = p ++ t.
Proof.
  revert s; induction p as [|a p IH]; intros s; cbn [starts]; [intro H; inversion H; reflexivity|].
  destruct s as [|c s]; [discriminate|]. destruct (a =? c) eqn:E; [|discriminate].
  apply N.eqb_eq in E; subst. intro H. apply IH in H. simpl; congruence.
Qed.
Lemma starts_self p t : starts p (p ++ t) = Some t.
Proof. induction p as [|a p IH]; simpl; [reflexivity|]. rewrite N.eqb_refl. exact IH. Qed.
Lemma drop_while_app p s : exists w, s = w ++ drop_while p s /\ forallb p w = true.
Proof.
  induction s as [|c s IH]; [exists []; auto|]. cbn [drop_while]. destruct (p c) eqn:E.
  - destruct IH as [w [H1 H2]]. exists (c :: w). simpl. rewrite E, H2. split; [f_equal; exact H1|reflexivity].
  - exists []; auto.
Qed.
Lemma drop_while_hd p s : match drop_while p s with c :: _ => p c = false | [] => True end.
Proof. induction s as [|c s IH]; simpl; auto. destruct (p c) eqn:E; auto. Qed.

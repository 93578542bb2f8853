(** What the matcher matches: a declarative reading of regular expressions, and
    the matcher's soundness and completeness for it. *)

From Coq Require Import List ZArith NArith String Bool Arith Lia.
From Verif Require Import Py Regex.
Import ListNotations.

(** [D r w ds]: [r] matches exactly [w], capturing [ds] (the latest first). *)
Inductive D : re -> pstr -> caps -> Prop :=
| D_eps : D Eps [] []
| D_chr p c : p c = true -> D (Chr p) [c] []
| D_cat r q w v ds es : D r w ds -> D q v es -> D (Cat r q) (w ++ v) (es ++ ds)
| D_left r q w ds : D r w ds -> D (Alt r q) w ds
| D_right r q w ds : D q w ds -> D (Alt r q) w ds
| D_some r w ds : D r w ds -> D (Opt r) w ds
| D_none r : D (Opt r) [] []
| D_nil r : D (Star r) [] []
| D_cons r w v ds es : D r w ds -> w <> [] -> D (Star r) v es -> D (Star r) (w ++ v) (es ++ ds)
| D_grp g r w ds : D r w ds -> D (Grp g r) w ((g, w) :: ds).

Lemma firstn_prefix {A} (w s : list A) : firstn (List.length (w ++ s) - List.length s) (w ++ s) = w.
Proof. rewrite app_length, Nat.add_sub, firstn_app, Nat.sub_diag, firstn_all. cbn. now rewrite app_nil_r. Qed.

Lemma mt_sound r : forall s cs k x, mt r s cs k = Some x ->
  exists w ds s', s = w ++ s' /\ D r w ds /\ k s' (ds ++ cs) = Some x.
Proof.
  induction r as [|p|r IHr q IHq|r IHr q IHq|r IHr|r IHr|g r IHr]; intros s cs k x H; cbn [mt] in H.
  - exists [], [], s. repeat split; auto. constructor.
  - destruct s as [|c s]; [discriminate|]. destruct (p c) eqn:E; [|discriminate].
    exists [c], [], s. repeat split; auto. now constructor.
  - apply IHr in H as (w & ds & s' & -> & Hr & H). apply IHq in H as (v & es & s'' & -> & Hq & H).
    exists (w ++ v), (es ++ ds), s''. rewrite <- !app_assoc. repeat split; auto. now constructor.
  - destruct (mt r s cs k) eqn:E.
    + injection H as <-. apply IHr in E as (w & ds & s' & -> & Hr & H). exists w, ds, s'. repeat split; auto. now apply D_left.
    + apply IHq in H as (w & ds & s' & -> & Hr & H). exists w, ds, s'. repeat split; auto. now apply D_right.
  - destruct (mt r s cs k) eqn:E.
    + injection H as <-. apply IHr in E as (w & ds & s' & -> & Hr & H). exists w, ds, s'. repeat split; auto. now apply D_some.
    + exists [], [], s. repeat split; auto. apply D_none.
  - revert H. generalize (List.length s) at 1. intros n. revert s cs. induction n as [|n IHn]; intros s cs H.
    + exists [], [], s. repeat split; auto. apply D_nil.
    + cbn beta iota in H. match type of H with match ?m with _ => _ end = _ => destruct m eqn:E end.
      * injection H as <-. apply IHr in E as (w & ds & s' & -> & Hr & E).
        cbn beta in E.
        destruct (List.length s' <? List.length (w ++ s'))%nat eqn:L; [|discriminate].
        apply Nat.ltb_lt in L. rewrite app_length in L.
        apply IHn in E as (v & es & s'' & -> & Hv & E). exists (w ++ v), (es ++ ds), s''. rewrite <- !app_assoc.
        repeat split; auto. apply D_cons; auto. intros ->. cbn in L. lia.
      * exists [], [], s. repeat split; auto. apply D_nil.
  - apply IHr in H as (w & ds & s' & -> & Hr & H). rewrite firstn_prefix in H.
    exists w, ((g, w) :: ds), s'. repeat split; auto. now constructor.
Qed.

Lemma mt_complete r : forall w ds, D r w ds -> forall s cs k, mt r (w ++ s) cs k = None -> k s (ds ++ cs) = None.
Proof.
  induction r as [|p|r IHr q IHq|r IHr q IHq|r IHr|r IHr|g r IHr]; intros w ds Dr s cs k H.
  - inversion Dr; subst. exact H.
  - inversion Dr as [|? c E| | | | | | | |]; subst. cbn in H. now rewrite E in H.
  - inversion Dr as [| |? ? w1 w2 d1 d2 H1 H2| | | | | | |]; subst. cbn [mt] in H. rewrite <- app_assoc in *.
    apply (IHr _ _ H1) in H. now apply (IHq _ _ H2) in H.
  - cbn [mt] in H. destruct (mt r (w ++ s) cs k) eqn:E; [discriminate|].
    inversion Dr as [| | |? ? ? ? H1|? ? ? ? H1| | | | |]; subst; [now apply (IHr _ _ H1)|now apply (IHq _ _ H1)].
  - cbn [mt] in H. destruct (mt r (w ++ s) cs k) eqn:E; [discriminate|].
    inversion Dr as [| | | | |? ? ? H1|? | | |]; subst; [now apply (IHr _ _ H1)|exact H].
  - cbn [mt] in H. remember (List.length (w ++ s)) as n eqn:L in H at 1.
    assert (L' : (List.length (w ++ s) <= n)%nat) by lia. clear L.
    remember (Star r) as q eqn:Q. generalize dependent H. generalize dependent L'. generalize dependent n. revert s cs.
    induction Dr as [| | | | | | |r'|r' w v ds es H1 _ N H2 IH2|]; try discriminate Q; injection Q as ->; intros s cs n L H.
    + cbn [app] in *. destruct n as [|n]; [exact H|].
      cbn beta iota in H. match type of H with match ?m with _ => _ end = _ => destruct m eqn:E end; [discriminate|]. exact H.
    + rewrite <- app_assoc in *. assert (LW : (0 < List.length w)%nat) by (destruct w; [congruence|cbn; lia]).
      rewrite app_length in L. destruct n as [|n]; [lia|]. cbn beta iota in H.
      match type of H with match ?m with _ => _ end = _ => destruct m eqn:E end; [discriminate|].
      apply (IHr _ _ H1) in E. cbn beta in E.
      assert (LT : (List.length (v ++ s) <? List.length (w ++ v ++ s))%nat = true) by (apply Nat.ltb_lt; rewrite (app_length w); lia).
      rewrite LT in E. apply (IH2 eq_refl s (ds ++ cs) n); [lia|exact E].
  - inversion Dr as [| | | | | | | | |? ? ? d H1]; subst. cbn [mt] in H. apply (IHr _ _ H1) in H. rewrite firstn_prefix in H. exact H.
Qed.

Lemma fullmatch_sound r s cs : fullmatch r s = Some cs -> D r s cs.
Proof.
  intros H. apply mt_sound in H as (w & ds & s' & -> & Hr & H). destruct s'; [|discriminate].
  injection H as <-. now rewrite !app_nil_r.
Qed.

Lemma fullmatch_complete r s cs : D r s cs -> exists cs', fullmatch r s = Some cs'.
Proof.
  intros H. destruct (fullmatch r s) as [cs'|] eqn:E; [eauto|]. exfalso. unfold fullmatch in E.
  rewrite <- (app_nil_r s) in E. apply (mt_complete r s cs H) in E. discriminate.
Qed.

(** ** Inversion *)

Lemma D_eps_iff w ds : D Eps w ds <-> w = [] /\ ds = [].
Proof. split; [inversion 1; auto|]. intros [-> ->]. constructor. Qed.

Lemma D_chr_iff p w ds : D (Chr p) w ds <-> exists c, w = [c] /\ p c = true /\ ds = [].
Proof. split; [inversion 1; eauto|]. intros (c & -> & H & ->). now constructor. Qed.

Lemma D_cat_iff r q w ds : D (Cat r q) w ds <->
  exists w1 w2 d1 d2, w = w1 ++ w2 /\ ds = d2 ++ d1 /\ D r w1 d1 /\ D q w2 d2.
Proof.
  split; [inversion 1; subst; eauto 8|]. intros (w1 & w2 & d1 & d2 & -> & -> & H1 & H2). now constructor.
Qed.

Lemma D_alt_iff r q w ds : D (Alt r q) w ds <-> D r w ds \/ D q w ds.
Proof. split; [inversion 1; auto|]. intros [H|H]; [now apply D_left|now apply D_right]. Qed.

Lemma D_opt_iff r w ds : D (Opt r) w ds <-> D r w ds \/ (w = [] /\ ds = []).
Proof. split; [inversion 1; auto|]. intros [H|[-> ->]]; [now apply D_some|apply D_none]. Qed.

Lemma D_grp_iff g r w ds : D (Grp g r) w ds <-> exists es, ds = (g, w) :: es /\ D r w es.
Proof. split; [inversion 1; eauto|]. intros (es & -> & H). now constructor. Qed.

Lemma D_star_chr p w ds : D (Star (Chr p)) w ds <-> Forall (fun c => p c = true) w /\ ds = [].
Proof.
  split.
  - intros H. remember (Star (Chr p)) as q eqn:Q. induction H as [| | | | | | |r|r w v ds es H _ _ H2 IH|]; try discriminate Q; [auto|].
    injection Q as ->. apply D_chr_iff in H as (c & -> & Hc & ->). destruct (IH eq_refl) as [F ->]. split; auto. now constructor.
  - intros [F ->]. induction F as [|c w H F IH]; [apply D_nil|].
    apply (D_cons (Chr p) [c] w [] []); auto; [now constructor|discriminate].
Qed.

Lemma D_plus_chr p w ds : D (Plus (Chr p)) w ds <-> w <> [] /\ Forall (fun c => p c = true) w /\ ds = [].
Proof.
  unfold Plus. rewrite D_cat_iff. split.
  - intros (w1 & w2 & d1 & d2 & -> & -> & H1 & H2). apply D_chr_iff in H1 as (c & -> & Hc & ->).
    apply D_star_chr in H2 as [F ->]. split; [discriminate|]. split; auto. now constructor.
  - intros (N & F & ->). destruct F as [|c w H F]; [congruence|]. exists [c], w, [], []. split; auto. split; auto.
    split; [now constructor|]. now apply D_star_chr.
Qed.

(** A star whose body reads one of a family of non-empty pieces. *)
Lemma D_star_pieces {A} (r : re) (f : A -> pstr) (P : A -> Prop) :
  (forall w ds, D r w ds <-> exists a, P a /\ w = f a /\ ds = []) -> (forall a, P a -> f a <> []) ->
  forall w ds, D (Star r) w ds <-> exists xs, Forall P xs /\ w = List.concat (map f xs) /\ ds = [].
Proof.
  intros H N w ds. split.
  - intros K. remember (Star r) as q eqn:Q. induction K as [| | | | | | |r'|r' w v ds es K _ _ K2 IH|]; try discriminate Q.
    + exists []. split; auto.
    + injection Q as ->. apply H in K as (a & Pa & -> & ->). destruct (IH eq_refl) as (xs & F & -> & ->).
      exists (a :: xs). split; auto.
  - intros (xs & F & -> & ->). induction F as [|a xs Pa F IH]; [apply D_nil|]. cbn.
    apply (D_cons r (f a) _ [] []); auto. apply H. eauto.
Qed.

Lemma D_word p w ds : p <> [] -> D (word p) w ds <-> map lower w = p /\ ds = [].
Proof.
  revert w ds. induction p as [|a p IH]; intros w ds N; [congruence|]. destruct p as [|b p].
  - cbn [word]. unfold ci. rewrite D_chr_iff. split.
    + intros (c & -> & H & ->). apply N.eqb_eq in H. cbn. now subst.
    + intros [H ->]. destruct w as [|c [|c' w]]; try discriminate H. injection H as H. exists c. split; auto. split; auto.
      now apply N.eqb_eq.
  - change (word (a :: b :: p)) with (Cat (ci a) (word (b :: p))). unfold ci. rewrite D_cat_iff. split.
    + intros (w1 & w2 & d1 & d2 & -> & -> & H1 & H2). apply D_chr_iff in H1 as (c & -> & Hc & ->). apply N.eqb_eq in Hc.
      apply IH in H2 as [H2 ->]; [|discriminate]. cbn. split; [now rewrite Hc, H2|reflexivity].
    + intros [H ->]. destruct w as [|c w]; [discriminate H|]. cbn in H. injection H as H1 H2.
      exists [c], w, [], []. split; auto. split; auto. split; [constructor; now apply N.eqb_eq|]. apply IH; [discriminate|]. auto.
Qed.

Lemma D_alts ps w ds : ps <> [] -> Forall (fun p => p <> []) ps ->
  D (alts ps) w ds <-> exists p, In p ps /\ map lower w = p /\ ds = [].
Proof.
  induction ps as [|p ps IH]; intros N F; [congruence|]. inversion F; subst. destruct ps as [|q ps].
  - cbn [alts]. rewrite D_word by assumption. cbn. split; [intros [? ?]; eauto|]. intros (p' & [<-|[]] & ?). auto.
  - change (alts (p :: q :: ps)) with (Alt (word p) (alts (q :: ps))). rewrite D_alt_iff, D_word, IH; auto; [|discriminate]. split.
    + intros [[? ?]|(p' & ? & ? & ?)]; [exists p; cbn; auto|exists p'; split; [now right|auto]].
    + intros (p' & [<-|Hp] & ?); [left; auto|right; eauto].
Qed.

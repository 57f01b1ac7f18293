(** Cyclic lists of vertices: consecutive triples, rotation, deletion of a vertex. *)
From Verif Require Import Base Geometry Prog Spec QcTac ProgProofs GeomProofs ListProofs.
From Coq Require Import Lqa.

(** ** Linear triples. *)
Fixpoint triples {A} (l : list A) : list (A * A * A) :=
  match l with
  | a :: ((b :: c :: _) as l') => (a, b, c) :: triples l'
  | _ => []
  end.
Lemma triples_nth {A} (l : list A) a b c :
  In (a, b, c) (triples l) <->
  exists i, nth_error l i = Some a /\ nth_error l (S i) = Some b /\ nth_error l (S (S i)) = Some c.
Proof.
  induction l as [|x l IH]; cbn [triples].
  - split; [intros [] | intros ([|i] & H & _); discriminate].
  - destruct l as [|y [|z l]].
    + split; [intros [] | intros ([|i] & H1 & H2 & _); cbn in *; try destruct i; discriminate].
    + split; [intros [] | intros ([|[|i]] & H1 & H2 & H3); cbn in *; try destruct i; discriminate].
    + cbn [In]. rewrite IH. split.
      * intros [E|(i & H)]; [injection E as <- <- <-; exists 0; auto | exists (S i); exact H].
      * intros ([|i] & H1 & H2 & H3); [left; cbn in *; congruence | right; exists i; auto].
Qed.
Lemma triples_snoc {A} (l : list A) x y z : triples (l ++ [x; y; z]) = triples (l ++ [x; y]) ++ [(x, y, z)].
Proof.
  induction l as [|a l IH]; [reflexivity|]. destruct l as [|b [|c l]]; [reflexivity|reflexivity|].
  change ((a :: b :: c :: l) ++ [x; y; z]) with (a :: (b :: c :: l) ++ [x; y; z]).
  change ((a :: b :: c :: l) ++ [x; y]) with (a :: (b :: c :: l) ++ [x; y]).
  cbn [app triples] in *. rewrite IH. reflexivity.
Qed.

(** ** Cyclic triples. *)
Definition cyc (l : contour) : list (point * point * point) := triples (l ++ firstn 2 l).

Lemma turn_cyc (vs : contour) a b c : 2 <= length vs ->
  (contour_turn vs a b c <-> In (a, b, c) (cyc vs)).
Proof.
  intros Hl. unfold cyc. rewrite triples_nth. unfold contour_turn.
  assert (Hn : forall i, i < length vs + 2 -> nth_error (vs ++ firstn 2 vs) i = nth_error vs (i mod length vs)).
  { intros i Hi. destruct (Nat.ltb_spec i (length vs)).
    - rewrite nth_error_app1 by assumption. rewrite Nat.mod_small by assumption. reflexivity.
    - rewrite nth_error_app2 by assumption.
      replace (i mod length vs) with (i - length vs).
      + assert (i - length vs < 2) by lia. destruct vs as [|x [|y vs]]; cbn in *; try lia.
        destruct (i - S (S (length vs))) as [|[|k]] eqn:E; try reflexivity. lia.
      + replace i with ((i - length vs) + 1 * length vs) at 2 by lia.
        rewrite Nat.mod_add by lia. symmetry. apply Nat.mod_small. lia. }
  assert (Hlen : length (vs ++ firstn 2 vs) = length vs + 2).
  { rewrite app_length, firstn_length. lia. }
  split.
  - intros (i & H1 & H2 & H3). exists i.
    assert (i < length vs) by (apply nth_error_Some; congruence).
    rewrite !Hn by lia. rewrite (Nat.mod_small i) by assumption. auto.
  - intros (i & H1 & H2 & H3). exists i.
    assert (Hi : S (S i) < length vs + 2) by (rewrite <- Hlen; apply nth_error_Some; congruence).
    rewrite Hn in H1, H2, H3 by lia. rewrite (Nat.mod_small i) in H1 by lia. auto.
Qed.

Lemma triples_app2 {A} (l m : list A) a b c :
  In (a, b, c) (triples (l ++ m)) <->
  In (a, b, c) (triples (l ++ firstn 2 m)) \/ In (a, b, c) (triples m).
Proof.
  induction l as [|x l IH].
  - cbn [app]. split; [auto|]. intros [H|H]; [|exact H].
    destruct m as [|u [|v m]]; cbn in H; destruct H.
  - destruct l as [|y [|z l]].
    + cbn [app]. destruct m as [|u [|v m]]; cbn; tauto.
    + cbn [app] in *. destruct m as [|u m]; cbn in *; [tauto|]. tauto.
    + cbn [app triples In] in *. rewrite IH. tauto.
Qed.
Lemma cyc_rot l m a b c : 2 <= length (l ++ m) ->
  In (a, b, c) (cyc (l ++ m)) -> In (a, b, c) (cyc (m ++ l)).
Proof.
  intros Hl. unfold cyc. intros H.
  assert (Hf : forall (u v : list point), firstn 2 (u ++ v) = firstn 2 (u ++ firstn 2 v)).
  { intros u v. destruct u as [|x [|y u]]; destruct v as [|z [|w v]]; reflexivity. }
  rewrite <- app_assoc in H. apply triples_app2 in H.
  rewrite <- app_assoc. apply triples_app2. destruct H as [H|H].
  - right.
    assert (Hlm : forall (u v : list point), 2 <= length (u ++ v) ->
       firstn 2 (v ++ firstn 2 (u ++ v)) = firstn 2 (v ++ u)).
    { intros u v Huv. destruct v as [|z [|w v]].
      - cbn [app]. rewrite app_nil_r. destruct u as [|x [|y u]]; cbn in *; try reflexivity; lia.
      - destruct u as [|x u]; cbn in *; [lia|]. reflexivity.
      - reflexivity. }
    assert (Hm : firstn 2 (m ++ firstn 2 (l ++ m)) = firstn 2 (m ++ l)) by (apply Hlm; exact Hl).
    rewrite Hm in H. exact H.
  - left.
    assert (Hx : m ++ firstn 2 (l ++ m) = m ++ firstn 2 (l ++ firstn 2 m)).
    { f_equal. apply Hf. }
    rewrite Hx in H.
    assert (Hy : firstn 2 (l ++ firstn 2 (m ++ l)) = firstn 2 (l ++ firstn 2 m)).
    { destruct l as [|x [|y l]]; [|destruct m as [|z m]|]; cbn in *; try reflexivity.
      - rewrite app_nil_r. destruct m as [|z [|w m]]; reflexivity.
      - lia. }
    rewrite Hy. exact H.
Qed.
Lemma cyc_rot_iff l m a b c : 2 <= length (l ++ m) ->
  (In (a, b, c) (cyc (l ++ m)) <-> In (a, b, c) (cyc (m ++ l))).
Proof.
  intros H. split; intros Hi; apply cyc_rot; try assumption.
  rewrite app_length in *. lia.
Qed.

(** ** Collinearity. *)
Lemma mul_zero (x y : Qc) : (x * y = 0)%Qc -> x <> Q2Qc 0 -> y = Q2Qc 0.
Proof.
  intros H Hx. apply Qcmult_integral in H. destruct H; [contradiction|assumption].
Qed.
Lemma parallel (kx ky ax ay bx by_ : Qc) : kx <> Q2Qc 0 \/ ky <> Q2Qc 0 ->
  (ax * ky - ay * kx = 0)%Qc -> (bx * ky - by_ * kx = 0)%Qc -> (ax * by_ - ay * bx = 0)%Qc.
Proof.
  intros [H|H] H1 H2.
  - apply (mul_zero kx); [|exact H].
    replace (kx * (ax * by_ - ay * bx))%Qc
      with (bx * (ax * ky - ay * kx) - ax * (bx * ky - by_ * kx))%Qc by ring.
    rewrite H1, H2. ring.
  - apply (mul_zero ky); [|exact H].
    replace (ky * (ax * by_ - ay * bx))%Qc
      with (by_ * (ax * ky - ay * kx) - ay * (bx * ky - by_ * kx))%Qc by ring.
    rewrite H1, H2. ring.
Qed.
Lemma point_neq_diff (a c : point) : a <> c -> (px c - px a <> Q2Qc 0 \/ py c - py a <> Q2Qc 0)%Qc.
Proof.
  intros H. destruct (Qc_eq_dec (px c - px a) (Q2Qc 0)) as [E|E]; [|left; exact E].
  right. intros E2. apply H, point_ext; qcl.
Qed.
Lemma collinear_drop_left u a b c : a <> c -> collinear a b c -> collinear u a c -> collinear u a b.
Proof.
  unfold collinear, cross. intros Hac H1 H2.
  pose proof (parallel (px c - px a) (py c - py a) (px a - px u) (py a - py u) (px b - px a) (py b - py a)
    (point_neq_diff _ _ Hac)) as Hp.
  replace ((px a - px u) * (py b - py u) - (py a - py u) * (px b - px u))%Qc
    with ((px a - px u) * (py b - py a) - (py a - py u) * (px b - px a))%Qc by ring.
  apply Hp; [rewrite <- H2; ring | rewrite <- H1; ring].
Qed.
Lemma collinear_drop_right a b c w : a <> c -> collinear a b c -> collinear a c w -> collinear b c w.
Proof.
  unfold collinear, cross. intros Hac H1 H2.
  pose proof (parallel (px c - px a) (py c - py a) (px c - px b) (py c - py b) (px w - px c) (py w - py c)
    (point_neq_diff _ _ Hac)) as Hp.
  replace ((px c - px b) * (py w - py b) - (py c - py b) * (px w - px b))%Qc
    with ((px c - px b) * (py w - py c) - (py c - py b) * (px w - px c))%Qc by ring.
  apply Hp.
  - replace ((px c - px b) * (py c - py a) - (py c - py b) * (px c - px a))%Qc with
      ((px b - px a) * (py c - py a) * (-(1)) + (py b - py a) * (px c - px a))%Qc by ring.
    transitivity (- ((px b - px a) * (py c - py a) - (py b - py a) * (px c - px a)))%Qc; [ring|].
    rewrite H1. ring.
  - transitivity (- ((px c - px a) * (py w - py a) - (py c - py a) * (px w - px a)))%Qc; [ring|].
    rewrite H2. ring.
Qed.

(** ** One vertex less. *)
Definition good (vs : contour) (m : point) : Prop :=
  forall a c, In (a, m, c) (cyc vs) -> ~ collinear a m c.
Lemma strict_good vs : 2 <= length vs -> (strict vs <-> forall m, good vs m).
Proof.
  intros Hl. unfold strict, good. split.
  - intros H m a c Hin. apply H. apply turn_cyc; assumption.
  - intros H a b c Ht. apply H. apply turn_cyc; assumption.
Qed.
Lemma cyc_head a b c l : In (a, b, c) (cyc (a :: b :: c :: l)).
Proof. left. reflexivity. Qed.
Lemma drop_turns a b c l u v w : l <> [] -> In (u, v, w) (cyc (a :: c :: l)) ->
  In (u, v, w) (cyc (a :: b :: c :: l))
  \/ (u = a /\ v = c /\ In (b, c, w) (cyc (a :: b :: c :: l)))
  \/ (v = a /\ w = c /\ In (u, a, b) (cyc (a :: b :: c :: l))).
Proof.
  intros Hl. unfold cyc. cbn [firstn app].
  destruct (exists_last Hl) as (l' & z & ->). rewrite <- !app_assoc. cbn [app].
  change (c :: l' ++ [z; a; c]) with ((c :: l') ++ [z; a; c]).
  change (c :: l' ++ [z; a; b]) with ((c :: l') ++ [z; a; b]).
  assert (Hx : forall q, exists d t, (c :: l') ++ [z; a; q] = c :: d :: t
     /\ forall q', exists t', (c :: l') ++ [z; a; q'] = c :: d :: t').
  { intros q. destruct l' as [|d t]; cbn; eexists; eexists; (split; [reflexivity|]); intros q'; eexists; reflexivity. }
  destruct (Hx c) as (d & t & E & E'). destruct (E' b) as (t' & Eb).
  intros H.
  assert (Hc : In (u, v, w) (triples (a :: (c :: l') ++ [z; a; c])) ->
     (u, v, w) = (a, c, d) \/ In (u, v, w) (triples ((c :: l') ++ [z; a; c]))).
  { rewrite E. cbn [triples In]. intros [<-|Hi]; auto. }
  apply Hc in H. destruct H as [H|H].
  - injection H as -> -> ->. right; left. repeat split. right. rewrite Eb. left. reflexivity.
  - rewrite triples_snoc in H. apply in_app_or in H. destruct H as [H|[H|[]]].
    + left.
      assert (Hi : In (u, v, w) (triples ((c :: l') ++ [z; a; b]))).
      { rewrite triples_snoc. apply in_or_app. left. exact H. }
      right. rewrite Eb in *. right. exact Hi.
    + injection H as <- <- <-. right; right. repeat split.
      assert (Hi : In (z, a, b) (triples ((c :: l') ++ [z; a; b]))).
      { rewrite triples_snoc. apply in_or_app. right. left. reflexivity. }
      right. rewrite Eb in *. right. exact Hi.
Qed.

Lemma good_drop_canonical a b c l m : l <> [] -> a <> c -> collinear a b c ->
  good (a :: b :: c :: l) m -> good (a :: c :: l) m.
Proof.
  intros Hl Hac Hcol Hg u w Hin Hc.
  destruct (drop_turns a b c l u m w Hl Hin) as [H|[(-> & -> & H)|(-> & -> & H)]].
  - exact (Hg _ _ H Hc).
  - apply (Hg _ _ H). eapply collinear_drop_right; eassumption.
  - apply (Hg _ _ H). eapply collinear_drop_left; eassumption.
Qed.
Lemma good_rot l m x : 2 <= length (l ++ m) -> (good (l ++ m) x <-> good (m ++ l) x).
Proof.
  intros Hl. unfold good. setoid_rewrite (cyc_rot_iff l m); [reflexivity|exact Hl].
Qed.

(** The vertex between [l1] and [l2] is collinear with its cyclic neighbours. *)
Definition collinear_between (l1 : contour) (b : point) (l2 : contour) : Prop :=
  exists a c w, l2 ++ l1 = c :: w /\ last (l2 ++ l1) c = a /\ collinear a b c.
Lemma good_drop l1 b l2 m : NoDup (l1 ++ b :: l2) -> 3 <= length (l1 ++ l2) ->
  collinear_between l1 b l2 -> good (l1 ++ b :: l2) m -> good (l1 ++ l2) m.
Proof.
  intros Hd Hl (a & c & w & Ew & Ea & Hcol) Hg.
  assert (Hl' : length (l2 ++ l1) = length (l1 ++ l2)) by (rewrite !app_length; lia).
  assert (Hw : w <> []) by (intros ->; rewrite Ew in Hl'; cbn in Hl'; lia).
  destruct (exists_last Hw) as (l & a' & ->).
  assert (a' = a).
  { rewrite <- Ea, Ew. change (c :: l ++ [a']) with ((c :: l) ++ [a']). rewrite last_last. reflexivity. }
  subst a'.
  assert (Hln : l <> []) by (intros ->; rewrite Ew in Hl'; cbn in Hl'; lia).
  assert (Hac : a <> c).
  { assert (Hd2 : NoDup (l2 ++ l1)).
    { apply NoDup_remove_1 in Hd. eapply Permutation_NoDup; [|exact Hd]. apply Permutation_app_comm. }
    rewrite Ew in Hd2. apply NoDup_cons_iff in Hd2. destruct Hd2 as (Hn & _). intros E. apply Hn. rewrite <- E. apply in_or_app. right; left; reflexivity. }
  apply (good_rot l2 l1); [rewrite app_length in *; lia|]. rewrite Ew.
  change (c :: l ++ [a]) with ((c :: l) ++ [a]).
  apply good_rot; [rewrite app_length; cbn; lia|]. cbn [app].
  apply (good_drop_canonical a b c l m Hln Hac Hcol).
  change (a :: b :: c :: l) with ([a] ++ (b :: c :: l)). apply good_rot; [cbn; lia|].
  change ((b :: c :: l) ++ [a]) with (b :: (c :: l ++ [a])). rewrite <- Ew.
  change (b :: l2 ++ l1) with ((b :: l2) ++ l1). apply good_rot; [|exact Hg].
  rewrite app_length in *. cbn. lia.
Qed.

(** ** Area. *)
Fixpoint psum (a : point) (l : list point) : Qc :=
  match l with [] => 0%Qc | x :: l' => (shoelace a x + psum x l')%Qc end.
Lemma psum_combine a l : qsum (map (fun ab => shoelace (fst ab) (snd ab)) (combine (a :: l) l)) = psum a l.
Proof.
  revert a. induction l as [|x l IH]; intros a; [reflexivity|].
  change (combine (a :: x :: l) (x :: l)) with ((a, x) :: combine (x :: l) l).
  cbn [map qsum fold_right fst snd psum] in *. rewrite <- IH. reflexivity.
Qed.
Lemma area_psum x l : doubled_area (x :: l) = psum (last (x :: l) x) (x :: l).
Proof. unfold doubled_area, zip_with_prev. apply psum_combine. Qed.
Lemma psum_app a l m : psum a (l ++ m) = (psum a l + psum (last l a) m)%Qc.
Proof.
  revert a. induction l as [|x l IH]; intros a; [cbn; ring|].
  cbn [app psum]. rewrite IH.
  replace (last (x :: l) a) with (last l x); [ring|].
  destruct l as [|y l]; [reflexivity|]. cbn [last]. destruct l; [reflexivity|].
  generalize p. clear. induction l as [|z l IH]; intros p; [reflexivity|]. cbn [last] in *. destruct l; auto.
Qed.
Lemma last_app_ne {A} (l m : list A) d d' : m <> [] -> last (l ++ m) d = last m d'.
Proof.
  intros H. destruct (exists_last H) as (m' & x & ->). rewrite app_assoc, !last_last. reflexivity.
Qed.
Lemma area_rot l m : doubled_area (l ++ m) = doubled_area (m ++ l).
Proof.
  destruct l as [|x l]; [rewrite app_nil_r; reflexivity|].
  destruct m as [|y m]; [rewrite app_nil_r; reflexivity|].
  change ((x :: l) ++ y :: m) with (x :: (l ++ y :: m)) at 1.
  change ((y :: m) ++ x :: l) with (y :: (m ++ x :: l)) at 1.
  rewrite !area_psum.
  change (x :: l ++ y :: m) with ((x :: l) ++ (y :: m)).
  change (y :: m ++ x :: l) with ((y :: m) ++ (x :: l)).
  rewrite !psum_app.
  rewrite (last_app_ne (x :: l) (y :: m) x x) by discriminate.
  rewrite (last_app_ne (y :: m) (x :: l) y x) by discriminate.
  assert (Hd : forall (z : point) (t : list point) d d', last (z :: t) d = last (z :: t) d').
  { intros z t d d'. apply (last_app_ne [] (z :: t) d d'). discriminate. }
  rewrite (Hd x l (last (y :: m) x) x), (Hd y m (last (x :: l) x) x). ring.
Qed.
Lemma area_drop_canonical a b c l :
  (doubled_area (a :: b :: c :: l) = doubled_area (a :: c :: l) + cross a b c)%Qc.
Proof.
  rewrite !area_psum. cbn [psum].
  assert (Hd : forall (z : point) (t : list point) d d', last (z :: t) d = last (z :: t) d').
  { intros z t d d'. apply (last_app_ne [] (z :: t) d d'). discriminate. }
  change (last (a :: b :: c :: l) a) with (last (c :: l) a).
  change (last (a :: c :: l) a) with (last (c :: l) a).
  unfold shoelace, cross. ring.
Qed.
Lemma area_drop l1 b l2 : 1 <= length (l1 ++ l2) -> collinear_between l1 b l2 ->
  doubled_area (l1 ++ b :: l2) = doubled_area (l1 ++ l2).
Proof.
  intros Hl (a & c & w & Ew & Ea & Hcol).
  rewrite (area_rot l1 (b :: l2)), (area_rot l1 l2). cbn [app]. rewrite Ew in *.
  destruct w as [|d w].
  - cbn in Ea. subst a. rewrite !area_psum. cbn. unfold shoelace. ring.
  - assert (Hw : d :: w <> []) by discriminate.
    destruct (exists_last Hw) as (l & a' & E). rewrite E in *.
    assert (a' = a).
    { rewrite <- Ea. change (c :: l ++ [a']) with ((c :: l) ++ [a']). rewrite last_last. reflexivity. }
    subst a'.
    change (b :: c :: l ++ [a]) with ((b :: c :: l) ++ [a]). change (c :: l ++ [a]) with ((c :: l) ++ [a]).
    rewrite (area_rot (b :: c :: l) [a]), (area_rot (c :: l) [a]). cbn [app].
    rewrite area_drop_canonical. unfold collinear in Hcol. rewrite Hcol. ring.
Qed.

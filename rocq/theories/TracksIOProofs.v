From stdpp Require Import prelude gmap strings pretty.
From Coq Require Import Ascii.
From Verif Require Import Base TextModel TextProofs TracksModel TracksSpec TracksProofs TrackingModel TracksIOModel TracksIOSpec.

Lemma concat_cons sep x y ls : String.concat sep (x :: y :: ls) = x +:+ sep +:+ String.concat sep (y :: ls).
Proof. done. Qed.
Lemma tabbed_split fs x : Forall (absent TAB) fs -> absent TAB x -> x <> "" -> getlines TAB (tabbed (fs ++ [x])) = fs ++ [x].
Proof.
  unfold tabbed. intros Hfs Hx Hne. induction fs as [|f fs IH]; simpl app.
  - simpl. by apply getlines_one.
  - inversion Hfs as [|? ? Hf Hfs']; subst. destruct (fs ++ [x]) as [|y ys] eqn:E; [by destruct fs|].
    rewrite concat_cons. rewrite (str_app_cons TAB "" _).
    rewrite getlines_cons by done. f_equal. apply IH. done.
Qed.
Lemma tabbed_no_nl fs : Forall (absent NL) fs -> absent NL (tabbed fs).
Proof.
  unfold tabbed. induction fs as [|f fs IH]; intros Hfs; [apply absent_nil|].
  inversion Hfs as [|? ? Hf Hfs']; subst. destruct fs as [|g fs]; [done|].
  rewrite concat_cons. apply absent_app. split; [done|]. apply absent_app. split; [|by apply IH].
  apply absent_cons. split; [done|apply absent_nil].
Qed.
Lemma unlines_split ls : Forall (absent NL) ls -> getlines NL (unlines ls) = ls.
Proof.
  induction ls as [|l ls IH]; simpl; intros H; [done|]. inversion H; subst. rewrite getlines_cons by done. f_equal. by apply IH.
Qed.
Lemma unlines_cons l ls : unlines (l :: ls) = l +:+ String NL (unlines ls).
Proof. done. Qed.

Lemma pretty_clean (z : Z) : clean (pretty z).
Proof. split; apply pretty_Z_absent; vm_compute; intros H; repeat (apply elem_of_cons in H as [H|H]; [discriminate|]); by apply elem_of_nil in H. Qed.

(** The header line *)
Lemma header_version v body : tracks_version (("OPENSFM_TRACKS_VERSION_v" +:+ pretty v) +:+ String NL body) = Ok (v, getlines NL body).
Proof.
  unfold tracks_version. rewrite getlines_cons.
  2:{ apply absent_app. split; [|apply pretty_clean]. vm_compute. intros H.
      repeat (apply elem_of_cons in H as [H|H]; [discriminate|]). by apply elem_of_nil in H. }
  change (("OPENSFM_TRACKS_VERSION_v" +:+ pretty v) : string) with (TRACKS_HEADER +:+ ("_v" +:+ pretty v)).
  rewrite starts_with_app.
  change (TRACKS_HEADER +:+ ("_v" +:+ pretty v)) with ("OPENSFM_TRACKS_VERSION_v" +:+ pretty v : string).
  change (String.length TRACKS_HEADER + 2) with (String.length "OPENSFM_TRACKS_VERSION_v"). rewrite substr_from_app. simpl.
  by rewrite atoi_pretty.
Qed.

Section P.
Context {F : Type}.
Variable show : F -> string.
Variable stod : string -> res F.
Variable zero : F.
Notation obs := (observation F).

(** ** Readers: a line either is rejected or adds one observation. *)
Definition reader_ok (n : nat) (read : tm obs -> string -> res (tm obs)) : Prop :=
  forall line, (forall m, exists e, read m line = Err e) \/
    exists s t rest o, split_tabs line = s :: t :: rest /\ length (split_tabs line) = n /\ forall m, read m line = Ok (tm_add m s t o).

Ltac crush_read :=
  repeat match goal with
  | |- context [stoi ?x] => destruct (stoi x); cbn [res_bind]
  | |- context [stod ?x] => destruct (stod x); cbn [res_bind]
  end.
Lemma read_cases n read : (forall line s t rest, split_tabs line = s :: t :: rest -> length (split_tabs line) = n ->
    (forall m, exists e, read m line = Err e) \/ exists o, forall m, read m line = Ok (tm_add m s t o)) ->
  2 <= n -> (forall line m, length (split_tabs line) <> n -> exists e, read m line = Err e) -> reader_ok n read.
Proof.
  intros H Hn Hl line. destruct (decide (length (split_tabs line) = n)) as [E|E]; [|left; intros m; by apply Hl].
  destruct (split_tabs line) as [|s [|t rest]] eqn:Es; simpl in E; [lia|lia|].
  destruct (H line s t rest Es) as [H1|[o H1]]; [by rewrite Es|by left|].
  right. exists s, t, rest, o. done.
Qed.
Lemma read_v0_ok : reader_ok 8 (read_line_v0 stod zero).
Proof.
  apply read_cases; [|lia|].
  - intros line s t rest Hs Hl. unfold read_line_v0. rewrite Hs in *.
    do 6 (destruct rest as [|? rest]; [done|]). destruct rest; [|done].
    crush_read; eauto.
  - intros line m Hl. unfold read_line_v0. destruct (split_tabs line) as [|? l]; [eauto|].
    do 7 (destruct l as [|? l]; [by eauto|]). destruct l; [done|eauto].
Qed.
Lemma read_v1_ok : reader_ok 9 (read_line_v1 stod).
Proof.
  apply read_cases; [|lia|].
  - intros line s t rest Hs Hl. unfold read_line_v1. rewrite Hs in *.
    do 7 (destruct rest as [|? rest]; [done|]). destruct rest; [|done].
    crush_read; eauto.
  - intros line m Hl. unfold read_line_v1. destruct (split_tabs line) as [|? l]; [eauto|].
    do 8 (destruct l as [|? l]; [by eauto|]). destruct l; [done|eauto].
Qed.
Lemma read_v2_ok : reader_ok 11 (read_line_v2 stod).
Proof.
  apply read_cases; [|lia|].
  - intros line s t rest Hs Hl. unfold read_line_v2. rewrite Hs in *.
    do 9 (destruct rest as [|? rest]; [done|]). destruct rest; [|done].
    crush_read; eauto.
  - intros line m Hl. unfold read_line_v2. destruct (split_tabs line) as [|? l]; [eauto|].
    do 10 (destruct l as [|? l]; [by eauto|]). destruct l; [done|eauto].
Qed.

Lemma read_lines_reject n read lines m l : reader_ok n read -> l ∈ lines -> length (getlines TAB l) <> n ->
  exists e, read_lines read m lines = Err e.
Proof.
  intros Hr Hin Hn. revert m. induction lines as [|l' lines IH]; intros m; [by apply elem_of_nil in Hin|].
  apply elem_of_cons in Hin as [->|Hin].
  - destruct (Hr l') as [He|(s & t & rest & o & Hs & Hl & _)]; [|done].
    simpl. destruct (He m) as [e ->]. simpl. eauto.
  - simpl. destruct (read m l') as [m1|e]; simpl; [|eauto]. by apply IH.
Qed.

(** ** Adding a list of observations *)
Definition add_all (m : tm obs) (es : list (string * string * obs)) : tm obs := foldl (fun m '(s, t, o) => tm_add m s t o) m es.
Lemma add_all_consistent es m : consistent m -> consistent (add_all m es).
Proof. revert m. induction es as [|[[s t] o] es IH]; intros m Hm; [done|]. simpl. apply IH. by apply consistent_add. Qed.
Lemma add_all_observed es m s t :
  observed (add_all m es) s t = match last_line es s t with Some o => Some o | None => observed m s t end.
Proof.
  revert m. induction es as [|[[s' t'] o] es IH]; intros m; [done|]. simpl. fold (add_all (tm_add m s' t' o) es).
  rewrite IH. destruct (last_line es s t); [done|]. rewrite observed_add. by case_bool_decide.
Qed.
Lemma add_all_shot es m s : tm_has_shot (add_all m es) s = true <-> tm_has_shot m s = true \/ exists t o, (s, t, o) ∈ es.
Proof.
  revert m. induction es as [|[[s' t'] o] es IH]; intros m.
  - simpl. split; [by left|]. intros [H|(t & o & H)]; [done|]. by apply elem_of_nil in H.
  - simpl. fold (add_all (tm_add m s' t' o) es). rewrite IH. unfold tm_has_shot. rewrite !bool_decide_eq_true.
    simpl. rewrite put2_dom. setoid_rewrite elem_of_cons. split.
    + intros [[->|H]|(t & o' & H)]; [right; exists t', o; by left|by left|right; exists t, o'; by right].
    + intros [H|(t & o' & [[= <- <- <-]|H])]; [by left; right|by left; left|right; by exists t, o'].
Qed.
Lemma last_line_elem (es : list (string * string * obs)) s t o : last_line es s t = Some o -> (s, t, o) ∈ es.
Proof.
  induction es as [|[[s' t'] o'] es IH]; simpl; [done|].
  destruct (last_line es s t) as [o1|].
  - intros [= ->]. right. by apply IH.
  - case_bool_decide as H; [|done]. destruct H as [-> ->]. intros [= ->]. left.
Qed.
Lemma last_line_none (es : list (string * string * obs)) s t : last_line es s t = None <-> forall o, (s, t, o) ∉ es.
Proof.
  induction es as [|[[s' t'] o'] es IH]; simpl.
  - split; [|done]. intros _ o H. by apply elem_of_nil in H.
  - destruct (last_line es s t) as [o1|] eqn:E.
    + split; [done|]. intros H. exfalso. apply (H o1). right. by apply last_line_elem.
    + case_bool_decide as H.
      * destruct H as [-> ->]. split; [done|]. intros H. exfalso. apply (H o'). left.
      * split; [|done]. intros _ o. rewrite not_elem_of_cons. split; [intros [= -> -> ->]; by apply H|]. by apply IH.
Qed.

(** Every accepted text: one observation per line. *)
Lemma read_lines_ok n read lines m m' : reader_ok n read -> read_lines read m lines = Ok m' ->
  exists es, m' = add_all m es /\ length es = length lines /\
    Forall2 (fun l e => length (getlines TAB l) = n /\ exists rest, getlines TAB l = e.1.1 :: e.1.2 :: rest) lines es.
Proof.
  intros Hr. revert m. induction lines as [|l lines IH]; intros m H; simpl in H.
  - injection H as <-. exists []. split_and!; [done|done|constructor].
  - destruct (Hr l) as [He|(s & t & rest & o & Hs & Hl & Hok)].
    + destruct (He m) as [e Hm]. rewrite Hm in H. done.
    + rewrite Hok in H. simpl in H. destruct (IH _ H) as (es & -> & Hlen & Hf).
      exists ((s, t, o) :: es). split_and!; [done|simpl; lia|]. constructor; [|done]. unfold split_tabs in *. simpl. eauto.
Qed.

(** ** Reading what was written *)
Variable rd : F -> F.
Hypothesis stod_show : forall x, stod (show x) = Ok (rd x).
Hypothesis show_clean : forall x, clean (show x).

Lemma read_lines_map read (mk : string * string * obs -> string) (keep : obs -> obs) es m :
  (forall m s t o, (s, t, o) ∈ es -> read m (mk (s, t, o)) = Ok (tm_add m s t (keep o))) ->
  read_lines read m (mk <$> es) = Ok (add_all m ((fun '(s, t, o) => (s, t, keep o)) <$> es)).
Proof.
  revert m. induction es as [|[[s t] o] es IH]; intros m H; [done|]. cbn [fmap list_fmap read_lines].
  rewrite H by left. simpl. apply IH. intros m' s' t' o' Hin. apply H. by right.
Qed.

Definition line_v2 (e : string * string * obs) : string :=
  let '(s, t, o) := e in
  tabbed [s; t; pretty (o_feature o); show (o_x o); show (o_y o); show (o_scale o); pretty (o_r o); pretty (o_g o); pretty (o_b o);
          pretty (o_segm o); pretty (o_inst o)].
Definition entry_ok (e : string * string * obs) : Prop := clean e.1.1 /\ clean e.1.2 /\ ints_ok e.2.

Ltac fields := repeat (apply Forall_cons; split; [first [assumption | apply pretty_clean | apply show_clean]|]); apply Forall_nil; done.
Lemma read_v2_line m s t o : entry_ok (s, t, o) -> read_line_v2 stod m (line_v2 (s, t, o)) = Ok (tm_add m s t (stored rd o)).
Proof.
  intros ([Hs1 Hs2] & [Ht1 Ht2] & Hi1 & Hi2 & Hi3 & Hi4 & Hi5 & Hi6). simpl in *.
  unfold read_line_v2, line_v2, split_tabs.
  match goal with |- context [tabbed ?l] => change l with (take 10 l ++ [pretty (o_inst o)]) end.
  rewrite tabbed_split; [|simpl; fields|apply pretty_clean|apply pretty_Z_nonempty]. simpl.
  rewrite !stoi_pretty, !stod_show by done. done.
Qed.
Lemma read_v1_line m s t o : entry_ok (s, t, o) -> read_line_v1 stod m (line_v1 show (s, t, o)) = Ok (tm_add m s t (stored_v1 rd o)).
Proof.
  intros ([Hs1 Hs2] & [Ht1 Ht2] & Hi1 & Hi2 & Hi3 & Hi4 & Hi5 & Hi6). simpl in *.
  unfold read_line_v1, line_v1, split_tabs.
  match goal with |- context [tabbed ?l] => change l with (take 8 l ++ [pretty (o_b o)]) end.
  rewrite tabbed_split; [|simpl; fields|apply pretty_clean|apply pretty_Z_nonempty]. simpl.
  rewrite !stoi_pretty, !stod_show by done. done.
Qed.
Lemma read_v0_line m s t o : entry_ok (s, t, o) -> read_line_v0 stod zero m (line_v0 show (s, t, o)) = Ok (tm_add m s t (stored_v0 rd zero o)).
Proof.
  intros ([Hs1 Hs2] & [Ht1 Ht2] & Hi1 & Hi2 & Hi3 & Hi4 & Hi5 & Hi6). simpl in *.
  unfold read_line_v0, line_v0, split_tabs.
  match goal with |- context [tabbed ?l] => change l with (take 7 l ++ [pretty (o_b o)]) end.
  rewrite tabbed_split; [|simpl; fields|apply pretty_clean|apply pretty_Z_nonempty]. simpl.
  rewrite !stoi_pretty, !stod_show by done. done.
Qed.
Lemma line_no_nl (mk : string * string * obs -> string) es : Forall entry_ok es ->
  (mk = line_v2 \/ mk = line_v1 show \/ mk = line_v0 show) -> Forall (absent NL) (mk <$> es).
Proof.
  intros Hes Hmk. apply Forall_forall. intros l (e & -> & He)%elem_of_list_fmap.
  rewrite Forall_forall in Hes. apply Hes in He. destruct e as [[s t] o].
  destruct He as ([Hs1 Hs2] & [Ht1 Ht2] & _). simpl in *.
  destruct Hmk as [-> | [-> | ->]]; apply tabbed_no_nl; fields.
Qed.

(** The written file, as lines *)
Definition entries (enumT : gmap string (gmap string obs) -> list (string * gmap string obs))
    (enumO : gmap string obs -> list (string * obs)) (m : tm obs) : list (string * string * obs) :=
  '(s, os) ← enumT (tracks_per_shot m); (fun '(t, o) => (s, t, o)) <$> enumO os.

Lemma write_obs_line s t o txt : write_obs show s t o +:+ txt = line_v2 (s, t, o) +:+ String NL txt.
Proof.
  unfold write_obs, line_v2, tabbed, tab, nl. rewrite !concat_cons. simpl String.concat.
  rewrite !str_app_assoc. rewrite !str_app_cons. reflexivity.
Qed.
Lemma write_inner s (l : list (string * obs)) txt :
  foldr (fun '(t, o) txt => write_obs show s t o +:+ txt) txt l = unlines (line_v2 <$> ((fun '(t, o) => (s, t, o)) <$> l)) +:+ txt.
Proof.
  induction l as [|[t o] l IH]; [done|]. rewrite !fmap_cons, unlines_cons. cbn [foldr]. rewrite write_obs_line. rewrite IH. rewrite str_app_assoc, str_app_cons. done.
Qed.
Lemma unlines_app l1 l2 : unlines (l1 ++ l2) = unlines l1 +:+ unlines l2.
Proof. induction l1 as [|l l1 IH]; [done|]. simpl app. rewrite !unlines_cons, IH. rewrite str_app_assoc, str_app_cons. done. Qed.
Lemma write_tracks_lines enumT enumO m :
  write_tracks show enumT enumO m = versioned 2 (line_v2 <$> entries enumT enumO m).
Proof.
  unfold write_tracks, versioned. rewrite unlines_cons. rewrite !str_app_assoc.
  change (TRACKS_HEADER +:+ "_v" +:+ pretty TRACKS_VERSION +:+ nl +:+ ?x) with
    ("OPENSFM_TRACKS_VERSION_v" +:+ pretty 2%Z +:+ String NL x). do 3 f_equal.
  unfold entries. induction (enumT (tracks_per_shot m)) as [|[s os] l IH]; [done|].
  cbn [foldr]. rewrite IH. cbn [mbind list_bind]. rewrite fmap_app, unlines_app. rewrite write_inner. done.
Qed.

Lemma read_versioned v lines : Forall (absent NL) lines ->
  tracks_version (versioned v lines) = Ok (v, lines).
Proof. intros H. unfold versioned. rewrite unlines_cons, header_version. by rewrite unlines_split. Qed.

Lemma entries_elem enumT enumO m s t o : enumerates enumT -> enumerates enumO ->
  (s, t, o) ∈ entries enumT enumO m <-> observed m s t = Some o.
Proof.
  intros HT HO. unfold entries. rewrite elem_of_list_bind, observed_eq. split.
  - intros ([s' os] & Hin & Hs). apply elem_of_list_fmap in Hin as ([t' o'] & [= -> -> ->] & Hin).
    apply (enum_elem _ _ _ _ HT) in Hs. apply (enum_elem _ _ _ _ HO) in Hin. rewrite Hs. done.
  - intros H. destruct (tracks_per_shot m !! s) as [os|] eqn:Es; [|done]. simpl in H.
    exists (s, os). split; [|by apply (enum_elem _ _ _ _ HT)].
    apply elem_of_list_fmap. exists (t, o). split; [done|]. by apply (enum_elem _ _ _ _ HO).
Qed.
Lemma last_line_map (keep : obs -> obs) es s t (f : option obs) :
  (forall o, (s, t, o) ∈ es <-> f = Some o) -> last_line ((fun '(s, t, o) => (s, t, keep o)) <$> es) s t = keep <$> f.
Proof.
  intros H. destruct (last_line _ s t) as [o|] eqn:E.
  - apply last_line_elem in E. apply elem_of_list_fmap in E as ([[s' t'] o'] & [= -> -> ->] & Hin).
    apply H in Hin. by rewrite Hin.
  - rewrite last_line_none in E. destruct f as [o|]; [|done]. exfalso. apply (E (keep o)).
    apply elem_of_list_fmap. exists (s, t, o). split; [done|]. by apply H.
Qed.

Lemma round_trip enumT enumO m : enumerates enumT -> enumerates enumO ->
  (forall s t o, observed m s t = Some o -> clean s /\ clean t /\ ints_ok o) ->
  exists m', read_tracks stod zero (write_tracks show enumT enumO m) = Ok m' /\ consistent m' /\
    (forall s t, observed m' s t = stored rd <$> observed m s t) /\
    (forall s, tm_has_shot m' s = true <-> exists t o, observed m s t = Some o).
Proof.
  intros HT HO Hok. rewrite write_tracks_lines. unfold read_tracks.
  assert (Forall entry_ok (entries enumT enumO m)) as Hes.
  { apply Forall_forall. intros [[s t] o] Hin. apply (Hok s t o). by apply (entries_elem enumT enumO). }
  rewrite read_versioned by (apply line_no_nl; auto). cbn [res_bind].
  rewrite decide_False, decide_False, decide_True by done.
  eexists. split; [|split; [|split]].
  - apply (read_lines_map _ _ (stored rd)). intros m' s t o Hin. apply read_v2_line. rewrite Forall_forall in Hes. by apply Hes.
  - apply add_all_consistent. done.
  - intros s t. rewrite add_all_observed. rewrite observed_empty.
    rewrite (last_line_map (stored rd) _ _ _ (observed m s t)); [|intros o; by apply entries_elem].
    by destruct (observed m s t).
  - intros s. rewrite add_all_shot. split.
    + intros [H|(t & o & H)]; [done|]. apply elem_of_list_fmap in H as ([[s' t'] o'] & [= -> -> ->] & H).
      exists t', o'. by apply (entries_elem enumT enumO).
    + intros (t & o & H). right. exists t, (stored rd o). apply elem_of_list_fmap. exists (s, t, o). split; [done|].
      by apply (entries_elem enumT enumO).
Qed.

Lemma read_old v es : (v = 0%Z \/ v = 1%Z) -> Forall entry_ok es ->
  exists m', read_tracks stod zero (versioned v ((if decide (v = 0%Z) then line_v0 show else line_v1 show) <$> es)) = Ok m' /\
    consistent m' /\ forall s t, observed m' s t = (if decide (v = 0%Z) then stored_v0 rd zero else stored_v1 rd) <$> last_line es s t.
Proof.
  intros Hv Hes. unfold read_tracks.
  rewrite read_versioned by (apply line_no_nl; [done|]; case_decide; auto). cbn [res_bind].
  assert (forall (keep : obs -> obs) s t, last_line ((λ '(s, t, o), (s, t, keep o)) <$> es) s t = keep <$> last_line es s t) as Hlast.
  { intros keep s t. clear Hes. induction es as [|[[s' t'] o] es IH]; [done|]. rewrite fmap_cons. cbn [last_line]. rewrite IH.
    destruct (last_line es s t); simpl; [done|]. by case_bool_decide. }
  destruct Hv as [-> | ->].
  - rewrite !(decide_True (P:=0%Z = 0%Z)) by done. eexists. split; [|split].
    + apply (read_lines_map _ _ (stored_v0 rd zero)). intros. apply read_v0_line. rewrite Forall_forall in Hes. by apply Hes.
    + by apply add_all_consistent.
    + intros s t. rewrite add_all_observed, Hlast, observed_empty. by destruct (last_line es s t).
  - rewrite !(decide_False (P:=1%Z = 0%Z)), decide_True by done. eexists. split; [|split].
    + apply (read_lines_map _ _ (stored_v1 rd)). intros. apply read_v1_line. rewrite Forall_forall in Hes. by apply Hes.
    + by apply add_all_consistent.
    + intros s t. rewrite add_all_observed, Hlast, observed_empty. by destruct (last_line es s t).
Qed.
(** Version 0 files have no header. *)
Lemma read_v0_headerless es : Forall entry_ok es -> (forall e, e ∈ es -> starts_with TRACKS_HEADER (line_v0 show e) = false) ->
  exists m', read_tracks stod zero (unlines (line_v0 show <$> es)) = Ok m' /\
    consistent m' /\ forall s t, observed m' s t = stored_v0 rd zero <$> last_line es s t.
Proof.
  intros Hes Hh. unfold read_tracks, tracks_version.
  assert (Forall (absent NL) (line_v0 show <$> es)) as Hnl by (apply line_no_nl; auto).
  rewrite unlines_split by done.
  assert (forall (keep : obs -> obs) s t, last_line ((λ '(s, t, o), (s, t, keep o)) <$> es) s t = keep <$> last_line es s t) as Hlast.
  { intros keep s t. clear Hes Hh Hnl. induction es as [|[[s' t'] o] es IH]; [done|]. rewrite fmap_cons. cbn [last_line]. rewrite IH.
    destruct (last_line es s t); simpl; [done|]. by case_bool_decide. }
  assert (match line_v0 show <$> es with
    | [] => Ok (0%Z, [])
    | line :: lines =>
        if starts_with TRACKS_HEADER line
        then try v := substr_from (String.length TRACKS_HEADER + 2) line in Ok (atoi v, lines)
        else Ok (0%Z, line :: lines)
    end = Ok (0%Z, line_v0 show <$> es)) as ->.
  { destruct es as [|e es]; [done|]. cbn [fmap list_fmap]. rewrite Hh by left. done. }
  cbn [res_bind]. rewrite decide_True by done. eexists. split; [|split].
  - apply (read_lines_map _ _ (stored_v0 rd zero)). intros. apply read_v0_line. rewrite Forall_forall in Hes. by apply Hes.
  - by apply add_all_consistent.
  - intros s t. rewrite add_all_observed, Hlast, observed_empty. by destruct (last_line es s t).
Qed.
End P.

(** Proofs about camera names and focal lengths. *)
From stdpp Require Import prelude strings pretty gmap numbers.
From Coq Require Import Ascii QArith Qcanon Field.
From Verif Require Import Base TextModel TextProofs PyText ExifModel ExifSpec ExifProofs.
Local Open Scope string_scope.
Local Open Scope list_scope.

Lemma py_words_app s a t : py_space a = true -> py_words (s +:+ String a t) = py_words s ++ py_words t.
Proof.
  intros Ha. induction s as [|c s IH].
  - change ("" +:+ String a t) with (String a t). by rewrite py_words_space.
  - rewrite str_app_cons. cbn [py_words]. destruct (py_space c) eqn:Hc; [done|]. destruct s as [|b s].
    + change ("" +:+ String a t) with (String a t). cbv beta iota. rewrite Ha. by rewrite py_words_space.
    + rewrite str_app_cons. rewrite str_app_cons in IH. destruct (py_space b) eqn:Hb; rewrite IH; [done|].
      assert (py_words (String b s) <> []) as Hne. { intros E. apply py_words_nil in E. cbn in E. by rewrite Hb in E. }
      destruct (py_words (String b s)) as [|w ws]; [done|]. done.
Qed.
Lemma lower_space a : py_space (lower_char a) = py_space a.
Proof. by destruct a as [[] [] [] [] [] [] [] []]. Qed.
Lemma lower_app s t : lower (s +:+ t) = lower s +:+ lower t.
Proof. induction s as [|a s IH]; [done|]. rewrite str_app_cons. unfold lower in *. cbn [str_map]. rewrite IH. by rewrite str_app_cons. Qed.
Lemma lower_no_space s : no_space s -> no_space (lower s).
Proof.
  induction s as [|a s IH]; [done|]. intros H. apply no_space_cons in H as [Ha Hs]. unfold lower. cbn [str_map]. apply no_space_cons.
  rewrite lower_space. split; [done|by apply IH].
Qed.
Lemma lower_word s : word s -> word (lower s).
Proof. intros [Hn Hs]. split; [by destruct s|by apply lower_no_space]. Qed.
Lemma lower_absent s : (forall a, ~ absent a s -> lower_char a = a) -> lower s = s.
Proof.
  induction s as [|a s IH]; intros H; [done|]. unfold lower. cbn [str_map]. f_equal.
  - apply H. intros Hn. apply Hn. cbn. left.
  - apply IH. intros b Hb. apply H. intros Hn. apply Hb. intros Hin. apply Hn. cbn. by right.
Qed.
Lemma lower_pretty (z : Z) : lower (pretty z) = pretty z.
Proof.
  apply lower_absent. intros a Ha. destruct (decide (a ∈ ["-"; "0"; "1"; "2"; "3"; "4"; "5"; "6"; "7"; "8"; "9"]%char)) as [Hin|Hn].
  - rewrite !elem_of_cons, elem_of_nil in Hin. destruct_or?; try done; by subst a.
  - exfalso. apply Ha. by apply pretty_Z_absent.
Qed.
Lemma word_SP w s : word w -> py_words (w +:+ " " +:+ s) = w :: py_words s.
Proof. intros H. change (w +:+ " " +:+ s) with (w +:+ String " " s). by rewrite py_words_cons. Qed.

(** The words of a camera name end with width, height, projection type and focal length *)
Lemma camera_id_words sf make model w h pt f :
  word pt -> word (str_take 6 (sf f)) ->
  exists front, py_words (camera_id sf make model w h pt f) = front ++ [pretty w; pretty h; lower pt; lower (str_take 6 (sf f))].
Proof.
  intros Hpt Hf. unfold camera_id. set (md := if decide (make <> "unknown") then _ else _). cbn [join].
  rewrite !lower_app, !lower_pretty. change (lower " ") with " ".
  exists (lower "v2" :: py_words (lower (strip make)) ++ py_words (lower (strip md))).
  change (lower "v2" +:+ " " +:+ ?a) with (lower "v2" +:+ String " " a). rewrite (py_words_cons (lower "v2") " ") by (first [done|split; [done|]; change (lower "v2") with "v2"; unfold no_space; cbn; repeat (constructor; [done|]); constructor]). cbn [app].
  f_equal. change (lower (strip make) +:+ " " +:+ ?a) with (lower (strip make) +:+ String " " a). rewrite py_words_app by done. rewrite <-app_assoc. f_equal.
  change (lower (strip md) +:+ " " +:+ ?a) with (lower (strip md) +:+ String " " a). rewrite py_words_app by done. f_equal.
  rewrite !word_SP by (first [apply word_pretty|by apply lower_word]). rewrite py_words_one by (by apply lower_word). done.
Qed.

Lemma app_inv_tail4 {A} (l l' : list A) a b c d a' b' c' d' : l ++ [a; b; c; d] = l' ++ [a'; b'; c'; d'] -> a = a' /\ b = b' /\ c = c' /\ d = d'.
Proof. intros E. apply app_inj_2 in E as [_ E]; [|done]. by injection E. Qed.

(** Removing the make from the model *)
Lemma starts_with_app s t : starts_with s (s +:+ t) = true.
Proof. induction s as [|a s IH]; [by destruct t|]. rewrite str_app_cons. cbn [starts_with]. rewrite IH. by rewrite bool_decide_eq_true_2 || (rewrite Ascii.eqb_refl; done) || (cbn; by destruct (decide _)). Qed.
Lemma remove_all_skip old s t : remove_all old (String.length s) (s +:+ t) = remove_all old 0 t.
Proof. induction s as [|a s IH]; [done|]. rewrite str_app_cons. cbn [String.length remove_all]. done. Qed.
Lemma remove_prefix old t : old <> "" -> replace_with_empty (old +:+ t) old = replace_with_empty t old.
Proof.
  intros Hn. destruct old as [|a old]; [done|]. unfold replace_with_empty. rewrite str_app_cons. cbn [remove_all].
  pose proof (starts_with_app (String a old) t) as E. rewrite str_app_cons in E. rewrite E. replace (String.length (String a old) - 1)%nat with (String.length old) by (cbn [String.length]; lia). apply remove_all_skip.
Qed.
Lemma strip_space a s : py_space a = true -> strip (String a s) = strip s.
Proof. intros H. unfold strip. cbn [lstrip]. by rewrite H. Qed.
Lemma remove_after_space old s : old <> "" -> (forall a r, old = String a r -> py_space a = false) ->
  replace_with_empty (" " +:+ s) old = " " +:+ replace_with_empty s old.
Proof.
  intros Hn Hs. destruct old as [|a old]; [done|]. specialize (Hs a old eq_refl). unfold replace_with_empty. change (" " +:+ s) with (String " " s).
  cbn [remove_all]. assert (starts_with (String a old) (String " " s) = false) as ->; [|done].
  cbn [starts_with]. destruct (decide (a = " "%char)) as [-> |Hne]; [by rewrite space_SP in Hs|]. by rewrite ?bool_decide_eq_false_2, ?(proj2 (Ascii.eqb_neq _ _) Hne).
Qed.

(** ** Focal length *)
Local Open Scope Qc_scope.
Lemma unit_mm_pos u mm : unit_mm u mm -> get_mm_per_unit u = Some mm /\ 0 < mm.
Proof.
  intros []; (split; [reflexivity|]); try (by apply qc_pos); apply qc_div_pos; by apply qc_pos.
Qed.
Lemma Qc_pos_neq a : 0 < a -> a <> 0.
Proof. intros H ->. by apply Qclt_not_eq in H. Qed.
Lemma sensor_width_spec t use loaded n h W : extract_image_size t use loaded = Ok (n, h) -> states_sensor_width t n W ->
  extract_sensor_width t use loaded = Ok (Some W).
Proof.
  intros Es (u & mm & v & p & Eu & Hu & Ev & Hv & Hp & E). unfold extract_sensor_width. rewrite Eu, Ev. cbn [index lookup list_lookup of_option res_bind].
  destruct (unit_mm_pos u mm Hu) as [-> Hmm].
  unfold get_tag_as_float. rewrite Ev. destruct Hv as (nn & d & -> & Hd & Hq). cbn [index lookup list_lookup of_option res_bind]. rewrite (eval_frac_is nn d p) by done.
  cbn [res_bind]. rewrite decide_False; [|rewrite qc_0; by apply Qclt_not_le]. cbn [res_bind]. rewrite Es. cbn [res_bind]. do 2 f_equal. rewrite <-E, qc_1.
  field. split; by apply Qc_pos_neq.
Qed.

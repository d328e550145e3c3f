(** Properties of the server of the viewer. *)
From stdpp Require Import prelude strings.
From Coq Require Import Lia Sorting.Sorted.
From Verif Require Import Base ViewerModel ViewerSpec ViewerProofs.

(** The items are the files below the dataset that look like reconstructions, each once, in order *)
Theorem C102_items : forall t, well_named t -> let l := reconstruction_files t in NoDup l /\ Sorted in_order l /\
  forall p, p ∈ l <-> (exists c, file_at t p c) /\ (exists d n, p = d ++ [n] /\ contains_text ".json" n) /\ ends_with_text "json" (join p) /\ contains_text "reconstruction" (join p).
Proof.
  intros t Hw l. split; [|split].
  - unfold l, reconstruction_files. rewrite sort_perm. by apply NoDup_filter, json_files_nodup.
  - apply sort_sorted.
  - intros p. unfold l, reconstruction_files. rewrite sort_perm, elem_of_list_filter, json_files_iff. unfold probably_reconstruction. rewrite andb_true_iff, ends_iff, contains_iff. split.
    + intros ([H1 H2] & q & c & -> & Hf & Hj). cbn [app] in *. split; [by exists c|]. split; [|done]. destruct q as [|n d _] using rev_ind; [by apply file_at_nonempty in Hf|]. exists d, n. split; [done|]. apply contains_iff. unfold last_name in Hj. by rewrite List.last_last in Hj.
    + intros ([c Hf] & (d & n & -> & Hj) & H1 & H2). split; [done|]. exists (d ++ [n]), c. split; [done|]. split; [done|]. unfold last_name. rewrite List.last_last. by apply contains_iff.
Qed.
(** Every file below the dataset is served under its path, and so every item *)
Theorem C102_served : forall root datapath t p c, node root datapath = Some t -> well_named t -> file_at t p c -> get_data root datapath p = Some c.
Proof. intros root dp t p c Ht Hw H. unfold get_data. by rewrite (resolve_file root p dp t c). Qed.
Theorem C102_items_served : forall root datapath t p, node root datapath = Some t -> well_named t -> p ∈ reconstruction_files t -> exists c, file_at t p c /\ get_data root datapath p = Some c.
Proof. intros root dp t p Ht Hw H. apply (C102_items t Hw) in H as [[c Hc] _]. exists c. split; [done|]. by eapply C102_served. Qed.
(** Requests without ".." give nothing but files below the dataset *)
Theorem C102_inside : forall root datapath es subpath c, node root datapath = Some (Dir es) -> ".." ∉ subpath -> get_data root datapath subpath = Some c -> exists q, file_at (Dir es) q c.
Proof.
  intros root dp es sp c Ht Hd H. unfold get_data, verified_send in H. destruct (resolve root dp sp) as [[c'|]|] eqn:E; try done. injection H as ->.
  destruct (resolve_inside root sp dp c Hd E) as [q Hq]. rewrite node_app, Ht in Hq. cbn [mbind option_bind] in Hq. apply node_file in Hq as [[_ ?]|Hq]; [done|by exists q].
Qed.
(** With "..", files outside of the dataset are served too (refuted: that only files of the dataset are served) *)
Theorem C102_traversal_refuted : exists root datapath es subpath c, node root datapath = Some (Dir es) /\ well_named root /\ get_data root datapath subpath = Some c /\ forall q, ~ file_at (Dir es) q c.
Proof.
  exists (Dir [("etc", Dir [("passwd", File "secret")]); ("data", Dir [("reconstruction.json", File "[]")])]), ["data"], [("reconstruction.json", File "[]")], [".."; "etc"; "passwd"], "secret".
  split; [reflexivity|]. split; [|split; [reflexivity|]].
  - constructor; [repeat (constructor; [rewrite ?elem_of_cons, ?elem_of_nil; naive_solver|]); constructor|]. intros n t H. rewrite !elem_of_cons, elem_of_nil in H. destruct H as [[= -> ->]|[[= -> ->]|[]]]; (split; [done|]; split; [done|]; split; [done|]); constructor; try apply NoDup_singleton; intros n t H; apply elem_of_list_singleton in H as [= -> ->]; (split; [done|]; split; [done|]; split; [done|]); constructor.
  - intros q H. inversion H; subst; match goal with H : _ ∈ [_] |- _ => apply elem_of_list_singleton in H; injection H as -> -> end; [done|]. match goal with H : file_at (File _) _ _ |- _ => inversion H end.
Qed.
(** The image of a shot is the file of that name in the directory of images, and nothing else *)
Theorem C102_image : forall root datapath t shot c, node root datapath = Some t -> well_named t -> get_image root datapath shot = Some c <-> file_at t ["images"; shot] c.
Proof.
  intros root dp t shot c Ht Hw. split; [|intros H; unfold get_image; by rewrite (resolve_file root _ dp t c)].
  unfold get_image. cbn [resolve]. rewrite Ht. destruct t as [|es]; [done|]. rewrite decide_False by (intros [?|?]; done). rewrite decide_False by done. inversion Hw as [|? Hn Hnames]; subst.
  destruct (find_entry es "images") as [t'|] eqn:Ei; [|done]. assert (node root (dp ++ ["images"]) = Some t') as -> by (rewrite node_app, Ht; cbn [mbind option_bind node]; by rewrite Ei).
  apply find_entry_elem in Ei; [|done]. destruct (Hnames _ _ Ei) as (_ & _ & _ & Hw'). destruct t' as [|es']; [done|]. assert (node root (dp ++ ["images"]) = Some (Dir es')) as E' by (apply find_entry_elem in Ei; [|done]; rewrite node_app, Ht; cbn [mbind option_bind node]; by rewrite Ei).
  destruct (decide (shot = "" \/ shot = ".")); [done|]. destruct (decide (shot = "..")); [rewrite removelast_last, Ht; done|].
  destruct (find_entry es' shot) as [t'|] eqn:Es; [|done]. assert (node root ((dp ++ ["images"]) ++ [shot]) = Some t') as -> by (rewrite node_app, E'; cbn [mbind option_bind node]; by rewrite Es).
  inversion Hw' as [|? Hn' _]; subst. apply find_entry_elem in Es; [|done]. destruct t'; [|done]. cbn [verified_send]. intros [= ->]. apply (file_below es "images" (Dir es')); [done|]. by constructor.
Qed.

(** A dataset with two reconstructions, another file and images *)
Definition example_dataset : tree := Dir [("images", Dir [("a.jpg", File "A")]); ("reconstruction.json", File "R"); ("tracks.csv", File "T"); ("old", Dir [("my_reconstruction.json", File "O"); ("camera_models.json", File "C")])].
Definition example_root : tree := Dir [("home", Dir [("set", example_dataset)])].
Example C102_example_named : well_named example_dataset.
Proof.
  Local Ltac named := first [constructor; [cbn; repeat (constructor; [rewrite ?elem_of_cons, ?elem_of_nil; naive_solver|]); constructor|intros n t H; rewrite ?elem_of_cons, ?elem_of_nil in H; repeat destruct H as [H|H]; try (by destruct H); injection H as -> ->; (split; [done|]; split; [done|]; split; [done|]); named]|constructor].
  unfold example_dataset. named.
Qed.
Example C102_example : reconstruction_files example_dataset = [["old"; "my_reconstruction.json"]; ["reconstruction.json"]] /\ node example_root ["home"; "set"] = Some example_dataset /\
  get_data example_root ["home"; "set"] ["old"; "my_reconstruction.json"] = Some "O" /\ get_data example_root ["home"; "set"] ["old"] = None /\ get_image example_root ["home"; "set"] "a.jpg" = Some "A" /\ get_image example_root ["home"; "set"] ".." = None.
Proof. repeat split; reflexivity. Qed.

Print Assumptions C102_items.
Print Assumptions C102_served.
Print Assumptions C102_items_served.
Print Assumptions C102_inside.
Print Assumptions C102_traversal_refuted.
Print Assumptions C102_image.

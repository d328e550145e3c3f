(** Model of the server of the viewer: /repo/viewer/server.py. A file system is a tree without links; paths are lists of names, which the code joins with "/". Flask, and the text of its answers, are not modelled. *)
From stdpp Require Import prelude strings.
From Verif Require Import Base.

Inductive tree := File (content : string) | Dir (entries : list (string * tree)).
Definition join (path : list string) : string := String.concat "/" path.
(** [sub in s], [s.endswith(sub)] *)
Fixpoint contains (sub s : string) : bool := String.prefix sub s || match s with EmptyString => false | String _ s' => contains sub s' end.
Fixpoint ends_with (sub s : string) : bool := bool_decide (s = sub) || match s with EmptyString => false | String _ s' => ends_with sub s' end.
(** 58-70: os.walk gives the files of a directory before its subdirectories *)
Definition plain_files (es : list (string * tree)) : list string := omap (fun e : string * tree => match e.2 with File _ => Some e.1 | Dir _ => None end) es.
Fixpoint json_files (root : list string) (t : tree) : list (list string) :=
  match t with
  | File _ => []
  | Dir es => ((fun f => root ++ [f]) <$> filter (fun f => contains ".json" f = true) (plain_files es)) ++
              (fix subs l := match l with [] => [] | (n, t') :: l' => json_files (root ++ [n]) t' ++ subs l' end) es
  end.
(** 73-75 *)
Definition probably_reconstruction (path : list string) : bool := ends_with "json" (join path) && contains "reconstruction" (join path).
(** sorted *)
Fixpoint insert_path (p : list string) (l : list (list string)) : list (list string) :=
  match l with [] => [p] | q :: l' => if String.leb (join p) (join q) then p :: q :: l' else q :: insert_path p l' end.
Definition sort_paths (l : list (list string)) : list (list string) := foldr insert_path [] l.
(** 78-81 *)
Definition reconstruction_files (t : tree) : list (list string) := sort_paths (filter (fun p => probably_reconstruction p = true) (json_files [] t)).

(** The operating system's reading of a path, from the directory [cur]: every name but the last must be a directory *)
Fixpoint find_entry (es : list (string * tree)) (n : string) : option tree := match es with [] => None | (k, t) :: es' => if decide (k = n) then Some t else find_entry es' n end.
Fixpoint node (t : tree) (path : list string) : option tree :=
  match path with [] => Some t | n :: path' => match t with Dir es => find_entry es n ≫= fun t' => node t' path' | File _ => None end end.
Fixpoint resolve (root : tree) (cur path : list string) : option tree :=
  match path with
  | [] => node root cur
  | n :: path' =>
    match node root cur with
    | Some (Dir es) =>
      if decide (n = "" \/ n = ".") then resolve root cur path'
      else if decide (n = "..") then resolve root (removelast cur) path'
      else match find_entry es n with Some _ => resolve root (cur ++ [n]) path' | None => None end
    | _ => None
    end
  end.
(** 84-88: the content of the file, None for 404 *)
Definition verified_send (t : option tree) : option string := match t with Some (File c) => Some c | _ => None end.
(** 43-47 for the data, with the dataset in the directory [datapath] *)
Definition get_data (root : tree) (datapath subpath : list string) : option string := verified_send (resolve root datapath subpath).
(** 50-55: the shot name is one name, without "/" *)
Definition get_image (root : tree) (datapath : list string) (shot : string) : option string := verified_send (resolve root datapath ["images"; shot]).

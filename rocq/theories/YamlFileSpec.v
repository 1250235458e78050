(** Vocabulary of the properties of YAML files. *)
From Coq Require Import List.
From Verif Require Import YamlFileModel.
Import ListNotations.

(** Two disks that agree on all files but one, and in all else. *)
Definition others_kept {char} (file : nat) (d e : disk char) : Prop :=
  (forall f, f <> file -> content e f = content d f) /\ (forall f, openable e f = openable d f) /\ (forall f, readable e f = readable d f) /\ forall f, room e f = room d f.
(** The file holds exactly the text. *)
Definition holds {char} (d : disk char) (file : nat) (text : list char) : Prop := content d file = Some text.
(** The whole text can be written. *)
Definition fits {char} (d : disk char) (file : nat) (text : list char) : Prop := length text <= room d file.
(** There is a file that can be read, and its text is a document. *)
Definition document_in {char node} (lib : library char node) (d : disk char) (file : nat) (n : node) : Prop :=
  exists text, content d file = Some text /\ readable d file = true /\ parse lib text = Some n.
(** The file that a request is for. *)
Definition target {object} (r : request (object := object)) : nat := match r with Serialize f _ => f | Store f _ => f end.
(** The node that a request writes; [None]: there is none. *)
Definition node_of {object node} (serialize encode : object -> option node) (r : request (object := object)) : option node :=
  match r with Serialize _ o => serialize o | Store _ o => encode o end.

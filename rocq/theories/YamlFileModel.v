(** Model of reading and writing objects as YAML files.

    Source: aslam_cv_common/include/aslam/common/yaml-file-serialization.h ("yf"), aslam_cv_common/include/aslam/common/yaml-serialization.h ("ys") 58-97.

    A file is a sequence of characters. [openable] tells whether a stream can open the file for writing (directory, permissions), [readable] whether an existing file can be opened for
    reading, [room] how many characters of the file the disk can take. The text that yaml-cpp emits for a node and the node that it parses from a text are parameters
    ([None]: an exception that is derived from std::exception), so are the conversions of the objects. A file does not change between being opened and being parsed.
    Emission writes the characters in order; what does not fit is lost and only marks the stream as bad. A conversion that fails throws; exceptions that are not derived from std::exception
    and logging are left out. *)
From Coq Require Import List Bool Arith.
Import ListNotations.

Record disk (char : Type) := Disk { content : nat -> option (list char); openable : nat -> bool; readable : nat -> bool; room : nat -> nat }.
Arguments Disk {char}. Arguments content {char}. Arguments openable {char}. Arguments readable {char}. Arguments room {char}.
(** An exception leaves the function, or a CHECK or assert fails. *)
Inductive ending (A : Type) := Returned (a : A) | Thrown | Aborted.
Arguments Returned {A}. Arguments Thrown {A}. Arguments Aborted {A}.
(** yaml-cpp: the text of a node, operator<< for nodes; Load. *)
Record library (char node : Type) := Library { emit : node -> list char; parse : list char -> option node }.
Arguments Library {char node}. Arguments emit {char node}. Arguments parse {char node}.

Section YamlFile.
Context {char node object : Type} (lib : library char node).

(** The new contents of one file. *)
Definition store (d : disk char) (file : nat) (text : list char) : disk char :=
  Disk (fun f => if f =? file then Some text else content d f) (openable d) (readable d) (room d).
(** std::ofstream(file_name): an existing file is emptied. [None]: not open. *)
Definition open_write (d : disk char) (file : nat) : option (disk char) := if openable d file then Some (store d file []) else None.
(** Emission to the open stream, and closing it. *)
Definition write (d : disk char) (file : nat) (text : list char) : disk char := store d file (firstn (room d file) text).
(** YAML::LoadFile: BadFile if the file cannot be opened, ParserException if it is no document. *)
Definition load_file (d : disk char) (file : nat) : option node :=
  match content d file with
  | Some text => if readable d file then parse lib text else None
  | None => None
  end.

(** What serialize leaves in the node: [None], a node that is not defined. *)
Context (serialize : object -> option node).
(** deserialize returns a bool or throws; in both cases it has changed the object. *)
Context (deserialize : object -> node -> ending bool * object).

(** serializeToFile, yf 20-30. *)
Definition serialize_to_file (d : disk char) (file : nat) (o : object) : ending unit * disk char :=
  match serialize o with
  | None => (Aborted, d)
  | Some n => match open_write d file with
              | None => (Aborted, d)
              | Some d' => (Returned tt, write d' file (emit lib n))
              end
  end.
(** deserializeFromFile, yf 32-43. *)
Definition deserialize_from_file (d : disk char) (file : nat) (o : object) : ending bool * object :=
  match load_file d file with
  | None => (Returned false, o)
  | Some n => deserialize o n
  end.

(** convert<ObjectType>::encode and as<ObjectType>(); [None] if they throw. *)
Context (encode : object -> option node) (decode : node -> option object).

(** Save to a stream, ys 58-72. [debug]: compiled with assertions. [stream]: [None] for a null pointer, else whether the stream is good and the function that appends to it. The node is made
    before anything is written. *)
Definition save_stream {W} (debug : bool) (w : W) (stream : option (bool * (W -> list char -> W))) (o : object) : ending bool * W :=
  match stream with
  | None => (Aborted, w)
  | Some (good, put) =>
      if debug && negb good then (Aborted, w)
      else match encode o with
           | None => (Returned false, w)
           | Some n => (Returned true, if good then put w (emit lib n) else w)
           end
  end.
(** Save to a file, ys 74-78. *)
Definition save (debug : bool) (d : disk char) (file : nat) (o : object) : ending bool * disk char :=
  match open_write d file with
  | Some d' => save_stream debug d' (Some (true, fun w text => write w file text)) o
  | None => save_stream debug d (Some (false, fun w _ => w)) o
  end.
(** Load, ys 80-97; [o]: the object that is pointed at, [None] for a null pointer. *)
Definition load (d : disk char) (file : nat) (o : option object) : ending bool * option object :=
  match o with
  | None => (Aborted, o)
  | Some _ =>
      if match content d file with Some _ => readable d file | None => false end then
        match load_file d file with
        | None => (Returned false, o)
        | Some n => match decode n with None => (Returned false, o) | Some v => (Returned true, Some v) end
        end
      else (Returned false, o)
  end.

(** A program that writes objects to files, one after the other, as long as none of the calls fails. *)
Inductive request := Serialize (file : nat) (o : object) | Store (file : nat) (o : object).
Fixpoint perform (debug : bool) (d : disk char) (l : list request) : ending unit * disk char :=
  match l with
  | [] => (Returned tt, d)
  | Serialize f o :: l => match serialize_to_file d f o with
                          | (Returned _, d') => perform debug d' l
                          | (Thrown, d') => (Thrown, d')
                          | (Aborted, d') => (Aborted, d')
                          end
  | Store f o :: l => match save debug d f o with
                      | (Returned _, d') => perform debug d' l
                      | (Thrown, d') => (Thrown, d')
                      | (Aborted, d') => (Aborted, d')
                      end
  end.
End YamlFile.

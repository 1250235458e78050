(** Model of the short texts of ids, of the texts of containers of ids, and of the hashes of pairs of ids.

    Sources: aslam_cv_common/include/aslam/common/hash-id.h ("h") 74-76, 116-121, 200-203; aslam_cv_common/include/aslam/common/unique-id.h ("u") 14, 60-69, 78-87, 142-147, 243-259.

    Texts are lists of bytes. A container is the list of its elements in the order of its iterators, which for an unordered set is any order. size_t has 64 bits. The ids are those of [HashIdModel]. *)
From Coq Require Import ZArith List Strings.Byte.
From Verif Require Import SerializationModel HashIdModel.
Import ListNotations.
Open Scope Z_scope.

(** std::string::substr for a position inside the text. *)
Definition substr (pos n : nat) (s : list byte) : list byte := firstn n (skipn pos s).
(** kDefaultIDPrintLength, u 14, and kPartLength, u 143. *)
Definition part_length : nat := ((10 - 2) / 2)%nat.
(** printString, u 142-147, which operator<< writes for Id and for the typed ids, u 243-252. *)
Definition print_string (i : id) : list byte :=
  let hex := hex_string i in substr 0 part_length hex ++ [x2e; x2e] ++ substr (length hex - part_length) part_length hex.
(** shortHex, h 74-76. *)
Definition short_hex (i : id) : list byte := substr 0 4 (hex_string i).
(** printIdContainer, u 78-87, with the text of an element: [print_string], or [hex_string] for plain HashIds, h 200-203. *)
Definition print_container (text : id -> list byte) (l : list id) : list byte :=
  fold_left (fun ss i => ss ++ text i ++ [x20]) l [x5b; x20] ++ [x5d].
(** hashToSizeTFast, h 116-121. *)
Definition hash_fast (i : id) : Z := Z.lxor (Z.lxor 14695981039346656037 (u64_0 i)) (u64_1 i).
(** The hash of a pair, u 64-68. *)
Definition hash_pair (p : id * id) : Z := Z.lxor (hash_to_size_t (fst p)) (hash_to_size_t (snd p)).

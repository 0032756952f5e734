(** What the claims about incomplete files say. *)
From Verif Require Export Pgm_spec Main_spec Disk.
Local Open Scope N_scope.

(** The reader rejects the text and keeps its image. *)
Definition rejects (t : text) : Prop :=
  forall io, exists s, read_image (opened t) io = Ok (s, io) /\ failbit s = true.
(** The reader takes the text for the image. *)
Definition reads_image (t : text) (img : image) : Prop :=
  forall io, exists s, read_image (opened t) io = Ok (s, Some img) /\ failbit s = false.

(** The image with another list of intensities. *)
Definition replaced_data (img : image) (d : list N) : image :=
  {| width := width img; height := height img; max_value := max_value img; data := d |}.

(** The same effects, except that files end after as many characters as they take. *)
Definition cut_file (room : text -> N) (e : outcome effects) : outcome effects :=
  match e with
  | Ok x => Ok {| status := status x; printed := printed x;
                  written_file := match written_file x with
                                  | Some (path, t) => Some (path, firstn (N.to_nat (room path)) t)
                                  | None => None
                                  end |}
  | Stop s => Stop s
  end.

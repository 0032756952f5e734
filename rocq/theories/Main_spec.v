(** Vocabulary for the properties of the application. *)
From Coq Require Import String.
From Verif Require Export Pgm_spec MainProg.
Local Open Scope N_scope.

(** The labeling a disparity map describes. *)
Definition map_labeling (img : image) : labeling :=
  fun p => nth (N.to_nat (py p * width img + px p)) (data img) 0.

(** The map belongs to the problem, respects its constraints and is optimal: it
    stays within every bound within which some labeling stays. *)
Definition best_map {T : target} (g : dgraph T) (lp : lowest T) (img : image) : Prop :=
  width img = width (left g) /\ height img = height (left g) /\ max_value img = levels g /\
  consistent_image img /\ valid_image img /\
  labeling_ok g (map_labeling img) /\
  forall k b, labeling_ok g k -> nodes_within g lp b k -> edges_within g lp b k ->
    nodes_within g lp b (map_labeling img) /\ edges_within g lp b (map_labeling img).

(** The map with disparity 0 everywhere. *)
Definition zero_map (w h lev : N) : image :=
  {| width := w; height := h; max_value := lev; data := fill (w * h) 0 |}.

(** The labeling takes the cheapest match of every pixel, the one with the smallest
    disparity if there are several. *)
Definition cheapest {T : target} (g : dgraph T) (k : labeling) : Prop :=
  forall p d v v', in_image g p -> match_exists g {| npix := p; disp := d |} ->
    node_penalty g (label_node k p) = Ok v -> node_penalty g {| npix := p; disp := d |} = Ok v' ->
    fle v v' = true /\ (fle v' v = true -> k p <= d).

(** The size of an image named in a file is not too large, and no byte of 128 to
    254 follows the image. *)
Definition usable (t : text) : Prop :=
  forall ts, laid_out ts t ->
    (forall w h m r, header w h m r ts -> w * h < 2 ^ 32 /\ 4 * (w * w * h) < 2 ^ 64) /\
    (forall img extra, image_tokens img extra ts -> ~ high_byte extra).
Definition usable_files (w : world) : Prop := forall path t, files w path = Some t -> usable t.

(** The number an option gives: white space, then a number as in a file. *)
Definition option_number (default : N) (o : option text) (v : N) : Prop :=
  match o with
  | None => v = default
  | Some t => exists sp tok, t = sp ++ tok /\ (forall c, In c sp -> space c) /\
      (forall c, hd_error tok = Some c -> ~ space c) /\ reads_as tok v
  end.

(** Two options are equal or give the same number. *)
Definition same_number (a b : option text) : Prop :=
  a = b \/ exists v, forall d, option_number d a v /\ option_number d b v.

(** The option cannot be used: no number, or a number that does not fit. *)
Definition option_invalid (o : option text) : Prop :=
  exists t sp tok, o = Some t /\ t = sp ++ tok /\ (forall c, In c sp -> space c) /\
    (forall c, hd_error tok = Some c -> ~ space c) /\ not_number tok.
Definition option_too_large (o : option text) : Prop :=
  exists t sp tok, o = Some t /\ t = sp ++ tok /\ (forall c, In c sp -> space c) /\
    (forall c, hd_error tok = Some c -> ~ space c) /\ out_of_range tok.

(** A file holds an image. *)
Definition file_holds (w : world) (path : text) (img : image) : Prop :=
  exists t ts, files w path = Some t /\ laid_out ts t /\ image_tokens img [] ts.

(** A file that can be opened but does not hold an image. *)
Definition broken_file (w : world) (path : text) : Prop :=
  exists t ts, files w path = Some t /\ laid_out ts t /\ defect ts.

(** The first one of the number of levels, the cleanness and the smoothness that is
    not a number is of the given kind; [l] is the left image. *)
Definition first_unusable (o : options) (l : image) (bad : option text -> Prop) : Prop :=
  bad (o_levels o) \/
  (exists lev, option_number (width l) (o_levels o) lev) /\
    (bad (o_cleanness o) \/ (exists c, option_number 1 (o_cleanness o) c) /\ bad (o_smoothness o)).

(** Names of the technologies of this build; the case does not matter. *)
Definition same_letter (c d : ascii) : Prop := c = d \/ code c + 32 = code d /\ 65 <= code c <= 90.
Definition known_technology (t : text) : Prop :=
  exists name, In name [lit "cpu"; lit "openmp"; lit "omp"] /\ Forall2 same_letter t name.

(** All paths are given, and the technology is known or left out. *)
Definition all_paths (o : options) (l r out : text) : Prop :=
  o_left o = Some l /\ o_right o = Some r /\ o_output o = Some out.
Definition technology_ok (o : options) : Prop :=
  forall t, o_parallel o = Some t -> known_technology t.

(** What the application asks of its inputs. *)
Definition good_problem (l r : image) (lev c s : N) : Prop :=
  valid_image l /\ valid_image r /\
  width l = width r /\ height l = height r /\ max_value l = max_value r /\
  1 < lev /\ lev <= width l /\ (0 < c \/ 0 < s).

(** A best map for the problem given by the files and the options. *)
Definition map_of (w : world) (o : options) (lpath rpath : text) (img : image) : Prop :=
  exists l r lev c s g lp, file_holds w lpath l /\ file_holds w rpath r /\
    option_number (width l) (o_levels o) lev /\ option_number 1 (o_cleanness o) c /\ option_number 1 (o_smoothness o) s /\
    make_graph l r lev (@of_u cpu c) (of_u s) = Ok g /\ make_lowest g = Ok lp /\ best_map g lp img.

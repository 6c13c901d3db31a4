(** Standard effects (the COMMON profile of materials): FCDEffectStandard with its constructor, GetOpacity, GetReflectivity and Clone
    (FCollada/FCDocument/FCDEffectStandard.cpp:66-147, 226-278), WriteEffectStandard (FColladaPlugins/FArchiveXML/FAXMaterialExport.cpp:898-987),
    WriteColorTextureParameter, WriteFloatTextureParameter and WriteTextureParameter (FAXMaterialExport.cpp:1085-1140), LoadEffectStandard
    (FAXMaterialImport.cpp:1216-1399), ParseColorTextureParameter, ParseFloatTextureParameter and ParseSimpleTextureParameter
    (FAXMaterialImport.cpp:1584-1728), on the XML tree of DaeModel.v and the texts of FloatModel.v.  Numbers are finite rationals and the
    arithmetic on them is exact; the writer is a relation because the digits printf chooses are.
    Not modelled: what is in a texture (they are counted), the parameters, images and extra tree of the profile, the attributes kept in the
    extra tree of the effect (faceted, double_sided, wireframe, face_map), animated values, the annotations of a parameter, error
    messages.  None is undefined behaviour. *)
From Coq Require Import String List ZArith QArith Bool.
From Verif Require Import TextModel StringModel XmlModel IdModel FloatModel DaeModel ExtraModel CustomModel LampModel AnimModel WireModel.
Import ListNotations.
Local Open Scope Q_scope.
Local Open Scope list_scope.

(** FCDEffectStandard.h:60-91, LightingType, and 94-103, TransparencyMode. *)
Inductive lighting := FLAT | LAMBERT | PHONG | BLINN | OTHER.
Inductive opaque := A_ONE | RGB_ZERO.
(** FCDEffectStandard.h:110-141: the colours and the numbers. *)
Inductive cfield := Emission | Diffuse | Ambient | Specular | Reflective | Transparent.
Inductive sfield := EmissionFactor | ReflectivityFactor | Refraction | TransparencyFactor | SpecularFactor | Shininess.
(** FUtils/FUDaeEnum.h:114-132, the texture channels; None stands for UNKNOWN below. *)
Inductive channel := CAmbient | CBump | CDiffuse | CDisplacement | CEmission | CFilter | CReflection | CRefraction | CShininess | CSpecular
                   | CSpecularLevel | CTransparent.
Definition cfield_eq (f g : cfield) : bool :=
  match f, g with
  | Emission, Emission | Diffuse, Diffuse | Ambient, Ambient | Specular, Specular | Reflective, Reflective | Transparent, Transparent => true
  | _, _ => false
  end.
Definition sfield_eq (f g : sfield) : bool :=
  match f, g with
  | EmissionFactor, EmissionFactor | ReflectivityFactor, ReflectivityFactor | Refraction, Refraction
  | TransparencyFactor, TransparencyFactor | SpecularFactor, SpecularFactor | Shininess, Shininess => true
  | _, _ => false
  end.
Definition channel_eq (c d : channel) : bool :=
  match c, d with
  | CAmbient, CAmbient | CBump, CBump | CDiffuse, CDiffuse | CDisplacement, CDisplacement | CEmission, CEmission | CFilter, CFilter
  | CReflection, CReflection | CRefraction, CRefraction | CShininess, CShininess | CSpecular, CSpecular | CSpecularLevel, CSpecularLevel
  | CTransparent, CTransparent => true
  | _, _ => false
  end.
(** FCDEffectParameter.h:62-80: the value of a parameter, with the reference for a REFERENCER and None for a CONSTANT. *)
Definition rgba : Type := (Q * Q * Q * Q)%type.
Definition parameter_of (A : Type) : Type := (A * option (list Z))%type.
(** FCDEffectStandard.h:106-165; a colour of None is not initialised, the textures are counted. *)
Record effect := Effect { lit : lighting; mode : opaque; color_of : cfield -> parameter_of (option rgba); number_of : sfield -> parameter_of Q;
                          is_factor : bool; is_reflective : bool; is_refractive : bool; textures : channel -> nat }.
(** FCDEffectStandard.cpp:101-146, the constructor; [old] is GetVersion() < 1.4.1. *)
Definition white : rgba := (1, 1, 1, 1).
Definition alpha_one : rgba := (0, 0, 0, 1).
Definition zero_color : rgba := (0, 0, 0, 0).
Definition default_color (f : cfield) : rgba := match f with Reflective => white | _ => alpha_one end.
Definition default_number (f : sfield) : Q := match f with Shininess => 20 | _ => 1 end.
Definition new_effect (old : bool) : effect :=
  Effect FLAT (if old then RGB_ZERO else A_ONE) (fun f => (Some (default_color f), None)) (fun f => (default_number f, None))
         false false false (fun _ => O).
(** The setters (FCDEffectStandard.h); SetValue leaves the kind of the parameter alone. *)
Definition update_color (f : cfield) (p : parameter_of (option rgba)) (e : effect) : effect :=
  Effect (lit e) (mode e) (fun g => if cfield_eq g f then p else color_of e g) (number_of e) (is_factor e) (is_reflective e) (is_refractive e) (textures e).
Definition update_number (f : sfield) (p : parameter_of Q) (e : effect) : effect :=
  Effect (lit e) (mode e) (color_of e) (fun g => if sfield_eq g f then p else number_of e g) (is_factor e) (is_reflective e) (is_refractive e) (textures e).
Definition set_color (f : cfield) (v : option rgba) (e : effect) : effect := update_color f (v, snd (color_of e f)) e.
Definition set_number (f : sfield) (v : Q) (e : effect) : effect := update_number f (v, snd (number_of e f)) e.
Definition set_lit (k : lighting) (e : effect) : effect :=
  Effect k (mode e) (color_of e) (number_of e) (is_factor e) (is_reflective e) (is_refractive e) (textures e).
Definition set_mode (m : opaque) (e : effect) : effect :=
  Effect (lit e) m (color_of e) (number_of e) (is_factor e) (is_reflective e) (is_refractive e) (textures e).
Definition set_factor (b : bool) (e : effect) : effect :=
  Effect (lit e) (mode e) (color_of e) (number_of e) b (is_reflective e) (is_refractive e) (textures e).
Definition set_flags (reflective refractive : bool) (e : effect) : effect :=
  Effect (lit e) (mode e) (color_of e) (number_of e) (is_factor e) reflective refractive (textures e).
(** FCDEffectStandard.cpp:199-224: AddTexture, [n] times. *)
Definition add_textures (c : channel) (n : nat) (e : effect) : effect :=
  Effect (lit e) (mode e) (color_of e) (number_of e) (is_factor e) (is_reflective e) (is_refractive e)
         (fun d => if channel_eq d c then (textures e d + n)%nat else textures e d).

(** FCDEffectStandard.cpp:227-233, GetOpacity, and 236-239, GetReflectivity: the first component is used three times. *)
Definition GetOpacity (e : effect) : option Q :=
  match fst (color_of e Transparent) with
  | None => None
  | Some (x, y, z, w) =>
      Some (match mode e with
            | RGB_ZERO => 1 - (x + x + x) / 3 * fst (number_of e TransparencyFactor)
            | A_ONE => w * fst (number_of e TransparencyFactor)
            end)
  end.
Definition GetReflectivity (e : effect) : option Q :=
  match fst (color_of e Reflective) with
  | None => None
  | Some (x, y, z, w) => Some ((x + x + x) / 3 * fst (number_of e ReflectivityFactor))
  end.
(** FCDEffectStandard.cpp:242-278, Clone into [x], step by step, and into a new effect of the same document: SetValue copies the value of a
    parameter only. *)
Definition channels : list channel :=
  [CAmbient; CBump; CDiffuse; CDisplacement; CEmission; CFilter; CReflection; CRefraction; CShininess; CSpecular; CSpecularLevel; CTransparent].
Definition CloneInto (e x : effect) : effect :=
  let col f y := set_color f (fst (color_of e f)) y in
  let num f y := set_number f (fst (number_of e f)) y in
  let x1 := set_mode (mode e) (fold_left (fun y c => add_textures c (textures e c) y) channels (set_lit (lit e) x)) in
  let x2 := set_factor (is_factor e) (num EmissionFactor (col Emission x1)) in
  let x3 := col Ambient (col Diffuse (num TransparencyFactor (col Transparent x2))) in
  let x4 := num Shininess (num SpecularFactor (col Specular x3)) in
  num Refraction (num ReflectivityFactor (col Reflective x4)).
Definition Clone (old : bool) (e : effect) : effect := CloneInto e (new_effect old).

(** *** Writing *)
(** FUtils/FUDaeSyntax.h:118-121, 660, FAXMaterialExport.cpp:907-916. *)
Definition lighting_name (k : lighting) : string :=
  match k with FLAT => "constant" | LAMBERT => "lambert" | PHONG => "phong" | BLINN => "blinn" | OTHER => "unknown" end.
(** FUtils/FUDaeSyntax.h:165-176, 482, 484. *)
Definition color_name (f : cfield) : string :=
  match f with
  | Emission => "emission" | Diffuse => "diffuse" | Ambient => "ambient" | Specular => "specular" | Reflective => "reflective"
  | Transparent => "transparent"
  end.
Definition number_name (f : sfield) : string :=
  match f with
  | EmissionFactor => "emission_level" | ReflectivityFactor => "reflectivity" | Refraction => "index_of_refraction"
  | TransparencyFactor => "transparency" | SpecularFactor => "spec_level" | Shininess => "shininess"
  end.
(** FAXMaterialExport.cpp:482-491 and 176-184, WriteEffectParameterVector and WriteEffectParameterFloat of a REFERENCER without
    annotations. *)
Definition write_reference (r : list Z) : xml := Elem (tx "param") [(tx "ref", r)] [].
(** FAXMaterialExport.cpp:1125-1140, WriteTextureParameter, and 1085-1103 and 1106-1123: the textures [ts] of the channel, or else the
    value as a <color> or <float>, or the reference. *)
Definition color_element (f : cfield) (attrs : list (list Z * list Z)) (p : parameter_of (option rgba)) (t : list Z) (ts : list xml) : xml :=
  Elem (tx (color_name f)) attrs
    match ts with
    | [] => match snd p with None => [Elem (tx "color") [] (content (AddContent t))] | Some r => [write_reference r] end
    | _ => ts
    end.
Definition number_element (f : sfield) (p : parameter_of Q) (t : list Z) (ts : list xml) : xml :=
  Elem (tx (number_name f)) []
    match ts with
    | [] => match snd p with None => [Elem (tx "float") [] (content t)] | Some r => [write_reference r] end
    | _ => ts
    end.
(** FAXMaterialExport.cpp:967-983: the parameters that are nothing but textures. *)
Definition texture_element (name : string) (ts : list xml) : list xml := match ts with [] => [] | _ => [Elem (tx name) [] ts] end.
Definition is_shiny (k : lighting) : bool := match k with FLAT | LAMBERT => false | _ => true end.
(** FAXMaterialExport.cpp:958. *)
Definition mode_name (m : opaque) : string := match m with RGB_ZERO => "RGB_ZERO" | A_ONE => "A_ONE" end.
(** FAXMaterialExport.cpp:920-964: the children of <phong> etc.; [ct], [st] and [ts] are the texts of the colours and numbers and the
    elements of the textures. *)
Definition common_elements (e : effect) (ct : cfield -> list Z) (st : sfield -> list Z) (ts : channel -> list xml) : list xml :=
  let col f ch := color_element f [] (color_of e f) (ct f) (ts ch) in
  let num f := number_element f (number_of e f) (st f) [] in
  (if is_factor e then [] else [col Emission CEmission]) ++
  (match lit e with FLAT => [] | _ => [col Ambient CAmbient; col Diffuse CDiffuse] end) ++
  (if is_shiny (lit e) then [col Specular CSpecular; num Shininess] else []) ++
  (if is_reflective e then [col Reflective CReflection; num ReflectivityFactor] else []) ++
  [color_element Transparent [(tx "opaque", tx (mode_name (mode e)))] (color_of e Transparent) (ct Transparent) (ts CTransparent);
   num TransparencyFactor] ++
  (if is_refractive e then [num Refraction] else []).
(** FAXMaterialExport.cpp:933-940, 966-983: the children of the FCOLLADA technique. *)
Definition own_elements (e : effect) (st : sfield -> list Z) (ts : channel -> list xml) : list xml :=
  let num f l := number_element f (number_of e f) (st f) l in
  (if is_shiny (lit e)
   then (match ts CShininess with [] => [] | l => [num Shininess l] end) ++
        (if Qeq_bool (fst (number_of e SpecularFactor)) 1 then [] else [num SpecularFactor (ts CSpecularLevel)])
   else []) ++
  texture_element "bump" (ts CBump) ++
  (if is_factor e then [num EmissionFactor []] else []) ++
  texture_element "displacement" (ts CDisplacement) ++ texture_element "filter_color" (ts CFilter) ++
  texture_element "index_of_refraction" (ts CRefraction).
(** FAXMaterialExport.cpp:898-987, WriteEffectStandard; [before] and [after] are the elements of the parameters and the extra tree of the
    profile and [sid] is the sid that AddNodeSid chooses. *)
Definition effect_element (before after : list xml) (sid : list Z) (e : effect) (ct : cfield -> list Z) (st : sfield -> list Z)
  (ts : channel -> list xml) : xml :=
  Elem (tx "profile_COMMON") []
    (before ++
     Elem (tx "technique") [(tx "sid", sid)]
       [Elem (tx (lighting_name (lit e))) [] (common_elements e ct st ts); WireModel.AddExtraTechniqueChild (own_elements e st ts)] :: after).
(** The same with the texts that FUStringConversion::ToString and FUStringBuilder::append write and any <texture> elements. *)
Definition WriteEffectStandard (eps : Q) (before after : list xml) (sid : list Z) (e : effect) (n : xml) : Prop :=
  exists ct st ts,
    (forall f, exists x y z w, fst (color_of e f) = Some (x, y, z, w) /\ ToString_vector eps (map Fin [x; y; z; w]) (ct f)) /\
    (forall f, appends eps (Fin (fst (number_of e f))) (st f)) /\
    (forall c, List.length (ts c) = textures e c /\ Forall (fun t => named t "texture" = true) (ts c)) /\
    n = effect_element before after sid e ct st ts.

(** *** Loading *)
(** FAXMaterialImport.cpp:1712-1728, ParseSimpleTextureParameter: the number of <texture> elements (LoadTexture of FAXMaterialImport.cpp:
    1542-1581 does not fail, as LoadExtra does not). *)
Definition texture_count (n : xml) : nat := List.length (filter (fun c => named c "texture") (children_of n)).
(** FAXMaterialImport.cpp:1605-1633: the name of the parameter that is referred to; SetReference cleans it (FCDEffectParameter.cpp:41-45). *)
Definition reference_of (p : xml) : list Z :=
  CleanSubId (match ReadNodeProperty p "ref" with
              | [] => match children_of p with [] => [] | c :: _ => ReadNodeContentFull c end
              | r => r
              end).
Definition text_of (n : option xml) : list Z := match n with Some n => ReadNodeContentDirect n | None => [] end.
Definition texture_in (c : option channel) (n : xml) (e : effect) : option effect :=
  match c with
  | None => None
  | Some c => match texture_count n with O => None | k => Some (add_textures c k e) end
  end.
(** FAXMaterialImport.cpp:1584-1646, ParseColorTextureParameter. *)
Definition ParseColor (a : arith) (e : effect) (n : xml) (f : cfield) (c : option channel) : option effect :=
  match texture_in c n e with
  | Some e' => Some (set_color f (Some white) e')
  | None =>
      match FindChildByType n "param" with
      | Some p => Some (update_color f (fst (color_of e f), Some (reference_of p)) e)
      | None => match ToVector4 a (text_of (FindChildByType n "color")) with
                | Some (v, _) => Some (set_color f v e)
                | None => None
                end
      end
  end.
(** FAXMaterialImport.cpp:1648-1710, ParseFloatTextureParameter. *)
Definition ParseNumber (a : arith) (e : effect) (n : xml) (f : sfield) (c : option channel) : option effect :=
  match texture_in c n e with
  | Some e' => Some (set_number f 1 e')
  | None =>
      match FindChildByType n "param" with
      | Some p => Some (update_number f (fst (number_of e f), Some (reference_of p)) e)
      | None => match ToFloat a (text_of (FindChildByType n "float")) with
                | Some (v, _) => Some (set_number f v e)
                | None => None
                end
      end
  end.
(** FUtils/FUString.h:545-548, IsEquivalentI: _stricmp in the C locale. *)
Definition lower (c : Z) : Z := if (65 <=? c)%Z && (c <=? 90)%Z then (c + 32)%Z else c.
Definition IsEquivalentI (s t : list Z) : bool := text_eq (map lower s) (map lower t).
(** FAXMaterialImport.cpp:1302-1306. *)
Definition read_mode (n : xml) (e : effect) : effect :=
  let t := ReadNodeProperty n "opaque" in
  if IsEquivalentI t (tx "RGB_ZERO") then set_mode RGB_ZERO e else if IsEquivalentI t (tx "A_ONE") then set_mode A_ONE e else e.
(** What has been seen so far (FAXMaterialImport.cpp:1275-1276). *)
Record told := Told { has_translucency : bool; has_reflectivity : bool; has_refractive : bool }.
(** FAXMaterialImport.cpp:1286-1380: one parameter, by the name of its element. *)
Definition color_channel (f : cfield) : channel :=
  match f with
  | Emission => CEmission | Diffuse => CDiffuse | Ambient => CAmbient | Specular => CSpecular | Reflective => CReflection
  | Transparent => CTransparent
  end.
Definition number_channel (f : sfield) : option channel :=
  match f with
  | EmissionFactor => Some CEmission | ReflectivityFactor => None | Refraction => Some CRefraction | TransparencyFactor => None
  | SpecularFactor => Some CSpecularLevel | Shininess => Some CShininess
  end.
Definition see_color (f : cfield) (s : told) : told :=
  match f with
  | Transparent => Told true (has_reflectivity s) (has_refractive s)
  | Reflective => Told (has_translucency s) true (has_refractive s)
  | _ => s
  end.
Definition see_number (f : sfield) (s : told) : told :=
  match f with
  | TransparencyFactor => Told true (has_reflectivity s) (has_refractive s)
  | ReflectivityFactor => Told (has_translucency s) true (has_refractive s)
  | Refraction => Told (has_translucency s) (has_reflectivity s) true
  | _ => s
  end.
Definition LoadParameter (a : arith) (s : effect * told) (n : xml) : option (effect * told) :=
  let '(e, k) := s in
  match find (fun f => named n (color_name f)) [Emission; Diffuse; Ambient; Transparent; Specular; Reflective] with
  | Some f => option_map (fun e' => (e', see_color f k))
                (ParseColor a (match f with Transparent => read_mode n e | _ => e end) n f (Some (color_channel f)))
  | None =>
      match find (fun f => named n (number_name f)) [TransparencyFactor; Shininess; ReflectivityFactor; Refraction; SpecularFactor; EmissionFactor] with
      | Some f => option_map (fun e' => (match f with EmissionFactor => set_factor true e' | _ => e' end, see_number f k))
                    (ParseNumber a e n f (number_channel f))
      | None => Some (if named n "bump" then add_textures CBump (texture_count n) e
                      else if named n "displacement" then add_textures CDisplacement (texture_count n) e
                      else if named n "filter_color" then add_textures CFilter (texture_count n) e else e, k)
      end
  end.
(** FAXMaterialImport.cpp:1258-1268: the first element that is a lighting model. *)
Fixpoint find_lighting (l : list xml) : option (lighting * xml) :=
  match l with
  | [] => None
  | c :: r => if named c "constant" then Some (FLAT, c) else if named c "lambert" then Some (LAMBERT, c)
              else if named c "phong" then Some (PHONG, c) else if named c "blinn" then Some (BLINN, c) else find_lighting r
  end.
(** FAXMaterialImport.cpp:1250-1254, 1278-1284: the parameters, those of the <phong> etc. first. *)
Definition technique_in (t : xml) (profile : string) : option xml :=
  match FindChildByType t "extra" with Some x => FindTechnique x profile | None => None end.
Definition parameters (t : xml) : list xml :=
  AnimModel.FindParameters (option_map snd (find_lighting (children_of t))) ++ AnimModel.FindParameters (technique_in t "MAX3D") ++
  AnimModel.FindParameters (technique_in t "MAYA") ++ AnimModel.FindParameters (technique_in t "FCOLLADA").
(** FAXMaterialImport.cpp:1382-1398: what the document does not mention. *)
Definition finish (s : effect * told) : effect :=
  let '(e, k) := s in
  let e1 := if has_translucency k then e
            else set_number TransparencyFactor (match mode e with RGB_ZERO => 0 | A_ONE => 1 end)
                   (set_color Transparent (Some (match mode e with RGB_ZERO => zero_color | A_ONE => white end)) e) in
  let e2 := if has_reflectivity k then e1 else set_number ReflectivityFactor 0 (set_color Reflective (Some zero_color) e1) in
  set_flags (has_reflectivity k) (has_refractive k) e2.
(** FAXMaterialImport.cpp:1216-1399, LoadEffectStandard into [e]; the name of the element does not matter (LoadEffectProfile, 1151-1157,
    warns and returns true). *)
Definition LoadEffectStandard (a : arith) (e : effect) (n : xml) : option effect :=
  match FindChildByType n "technique" with
  | None => Some e
  | Some t =>
      let e1 := match find_lighting (children_of t) with Some (k, _) => set_lit k e | None => e end in
      option_map finish (fold_option (LoadParameter a) (parameters t) (Some (e1, Told false false false)))
  end.

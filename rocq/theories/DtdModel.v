(** The texts of the document types, as in lib/Feature/XmlConstants.h:55-101 and
    lib/Feature/SxfmConstants.h:21-33. *)
From Coq Require Import List Ascii String.
From Verif Require Import Text.
Import ListNotations.
Local Open Scope string_scope.

Definition newline : string := String (ascii_of_nat 10) EmptyString.
Definition quote : string := String (ascii_of_nat 34) EmptyString.
(** [XmlConstants::DtdRaw]; its lines are joined by newlines. *)
Definition xml_dtd : text := T (String.concat newline
  ["<!ELEMENT vm (binaryOptions, numericOptions?, booleanConstraints?, nonBooleanConstraints?, mixedConstraints?)>";
   "<!ATTLIST vm name CDATA #REQUIRED root CDATA #IMPLIED commit CDATA #IMPLIED>";
   "<!ELEMENT binaryOptions (configurationOption*)>";
   "<!ELEMENT numericOptions (configurationOption*)>";
   "<!ELEMENT booleanConstraints (constraint*)>";
   "<!ELEMENT nonBooleanConstraints (constraint*)>";
   "<!ELEMENT mixedConstraints (constraint*)>";
   "<!ELEMENT configurationOption (name, outputString?, (prefix | preFix)?, (postfix | postFix)?, parent?, children?, impliedOptions?, excludedOptions?, defaultValue?, optional?, ((minValue, maxValue) | values)?, stepFunction?, locations?)>";
   "<!ELEMENT constraint (#PCDATA)>";
   "<!ATTLIST constraint req CDATA #IMPLIED exprKind CDATA #IMPLIED>";
   "<!ELEMENT name (#PCDATA)>";
   "<!ELEMENT outputString (#PCDATA)>";
   "<!ELEMENT prefix (#PCDATA)>";
   "<!ELEMENT preFix (#PCDATA)>";
   "<!ELEMENT postfix (#PCDATA)>";
   "<!ELEMENT postFix (#PCDATA)>";
   "<!ELEMENT parent (#PCDATA)>";
   "<!ELEMENT children (options*)>";
   "<!ELEMENT impliedOptions (options*)>";
   "<!ELEMENT excludedOptions (options*)>";
   "<!ELEMENT defaultValue (#PCDATA)>";
   "<!ELEMENT options (#PCDATA)>";
   "<!ELEMENT optional (#PCDATA)>";
   "<!ELEMENT minValue (#PCDATA)>";
   "<!ELEMENT maxValue (#PCDATA)>";
   "<!ELEMENT values (#PCDATA)>";
   "<!ELEMENT stepFunction (#PCDATA)>";
   "<!ELEMENT locations (sourceRange*)>";
   "<!ELEMENT sourceRange (revisionRange?, path, start, end, memberOffset?)>";
   "<!ATTLIST sourceRange category (necessary|inessential) " ++ quote ++ "necessary" ++ quote ++ ">";
   "<!ELEMENT revisionRange (introduced, removed?)>";
   "<!ELEMENT introduced (#PCDATA)>";
   "<!ELEMENT removed (#PCDATA)>";
   "<!ELEMENT path (#PCDATA)>";
   "<!ELEMENT start (line, column)>";
   "<!ELEMENT end (line, column)>";
   "<!ELEMENT line (#PCDATA)>";
   "<!ELEMENT column (#PCDATA)>";
   "<!ELEMENT memberOffset (#PCDATA)>"]).
(** [SxfmConstants::DtdRaw]. *)
Definition sxfm_dtd : text := T (String.concat newline
  ["<!ELEMENT feature_model (meta?, feature_tree, constraints?)>";
   "<!ATTLIST feature_model";
   "   name CDATA #IMPLIED";
   ">";
   "<!ELEMENT meta (data*)>";
   "<!ELEMENT data (#PCDATA)>";
   "<!ATTLIST data name CDATA #REQUIRED>";
   "<!ELEMENT feature_tree (#PCDATA)>";
   "<!ATTLIST feature_tree";
   "   indentation_string CDATA #IMPLIED";
   ">";
   "<!ELEMENT constraints (#PCDATA)>"]).

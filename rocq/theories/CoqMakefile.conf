# This configuration file was generated by running:
# coq_makefile -f ../_CoqProject


###############################################################################
#                                                                             #
# Project files.                                                              #
#                                                                             #
###############################################################################

COQMF_VFILES = theories/Base.v theories/BaseFacts.v theories/NdModel.v theories/NdFacts.v theories/RSum.v theories/LinAlgModel.v theories/LinAlgSpec.v theories/GPModel.v theories/NoiseModel.v theories/LinAlgFacts.v theories/GPProofs.v theories/NoiseProofs.v theories/MuyGPSModel.v theories/GPSpec.v theories/MuyGPSProofs.v theories/Gauss.v theories/GPTheorems.v theories/ScaleSpec.v theories/ScaleProofs.v theories/DownSampleProofs.v theories/FastProofs.v theories/WellPosedProofs.v theories/GPExamples.v theories/TensorModel.v theories/TensorSpec.v theories/TensorProofs.v theories/TensorLemmas.v theories/TensorProps.v theories/HyperModel.v theories/HyperSpec.v theories/HyperProofs.v theories/NamedModel.v theories/NamedSpec.v theories/NamedProofs.v theories/KernelModel.v theories/KernelSpec.v theories/KernelProofs.v theories/HyperLemmas.v theories/KernelLemmas.v theories/KernelCases.v theories/KernelProps.v theories/HyperProps.v theories/GPProps.v theories/ScaleProps.v theories/LossModel.v theories/LossSpec.v theories/LossProofs.v theories/ChassisModel.v theories/ChassisSpec.v theories/ChassisProofs.v theories/ObjectiveProofs.v theories/LossLemmas.v theories/LossProps.v theories/ChassisLemmas.v theories/ChassisProps.v theories/NeighborsModel.v theories/NeighborsSpec.v theories/NeighborsProofs.v theories/BatchProofs.v theories/BatchLemmas.v theories/NeighborsProps.v theories/MpiModel.v theories/MpiSem.v theories/MpiProofs.v theories/ChunkProofs.v
COQMF_MLIFILES = 
COQMF_MLFILES = 
COQMF_MLGFILES = 
COQMF_MLPACKFILES = 
COQMF_MLLIBFILES = 
COQMF_METAFILE = 
COQMF_CMDLINE_VFILES = 

###############################################################################
#                                                                             #
# Path directives (-I, -R, -Q).                                               #
#                                                                             #
###############################################################################

COQMF_OCAMLLIBS = 
COQMF_SRC_SUBDIRS = 
COQMF_COQLIBS =  -Q theories Verif 
COQMF_COQLIBS_NOML = -Q theories Verif 
COQMF_CMDLINE_COQLIBS =   

###############################################################################
#                                                                             #
# Coq configuration.                                                          #
#                                                                             #
###############################################################################

COQMF_COQLIB=/usr/lib/ocaml/coq/
COQMF_COQCORELIB=/usr/lib/ocaml/coq/../coq-core/
COQMF_DOCDIR=/usr/share/doc/
COQMF_OCAMLFIND=/usr/bin/ocamlfind
COQMF_CAMLFLAGS=-thread -rectypes -w -a+1..3-4+5..8-9+10..26-27+28..40-41-42+43-44-45+46..47-48+49..57-58+59..66-67-68+69-70   -safe-string -strict-sequence
COQMF_WARN=-warn-error +a-3
COQMF_HASNATDYNLINK=true
COQMF_COQ_SRC_SUBDIRS=boot config lib clib kernel library engine pretyping interp gramlib parsing proofs tactics toplevel printing ide stm vernac plugins/btauto plugins/cc plugins/derive plugins/extraction plugins/firstorder plugins/funind plugins/ltac plugins/ltac2 plugins/micromega plugins/nsatz plugins/ring plugins/rtauto plugins/ssr plugins/ssrmatching plugins/syntax
COQMF_COQ_NATIVE_COMPILER_DEFAULT=ondemand
COQMF_WINDRIVE=

###############################################################################
#                                                                             #
# Native compiler.                                                            #
#                                                                             #
###############################################################################

COQMF_COQPROJECTNATIVEFLAG = 

###############################################################################
#                                                                             #
# Extra variables.                                                            #
#                                                                             #
###############################################################################

COQMF_OTHERFLAGS = 
COQMF_INSTALLCOQDOCROOT = Verif

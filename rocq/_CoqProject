-Q theories Verif
theories/Model/Ints.v
theories/Model/Prelude.v
theories/Model/Geometry.v
theories/Model/Exec.v
theories/Model/Pixel.v
theories/Model/ZMap.v
theories/Model/Image.v
theories/Model/Loops.v
theories/Model/Transform.v
theories/Model/Measures.v
theories/Model/StrElt.v
theories/Model/Morph.v
theories/Spec/MorphSpec.v
theories/Proofs/MorphFacts.v
theories/Proofs/MorphPasses.v
theories/Proofs/MorphPasses2.v
theories/Proofs/MorphPasses3.v
theories/Proofs/StrEltProofs.v
theories/Proofs/MorphPasses4.v
theories/Proofs/MorphIter.v
theories/Proofs/MorphHeight1.v
theories/Proofs/MorphTheorems2.v
theories/Proofs/MorphTheorems.v
theories/Proofs/MorphFilters.v
theories/Proofs/MorphAlgebra.v
theories/Proofs/MorphProofs.v
theories/Spec/ExecSpec.v
theories/Proofs/PreludeFacts.v
theories/Proofs/ZMapFacts.v
theories/Proofs/IntsFacts.v
theories/Proofs/GeometryFacts.v
theories/Proofs/ExecFacts.v
theories/Spec/PixelSpec.v
theories/Spec/ImageSpec.v
theories/Spec/TransformSpec.v
theories/Proofs/GeometryProofs.v
theories/Proofs/PixelProofs.v
theories/Proofs/ImageFacts.v
theories/Proofs/LoopFacts.v
theories/Proofs/TransformProofs.v
theories/Proofs/TransformProofs2.v
theories/Proofs/TransformProofs3.v
theories/Proofs/TransformProofs4.v
theories/Proofs/TransformProofs5.v
theories/Proofs/MeasureFacts.v
theories/Proofs/MeasureProofs.v
theories/Proofs/MeasureProofs2.v
theories/Props/P_Geometry.v
theories/Props/P_Pixelwise.v
theories/Props/P_Measures.v
theories/Props/P_Transform.v
theories/Props/P_StrElt.v
theories/Props/P_Morph.v
theories/Model/Queues.v
theories/Spec/QueueSpec.v
theories/Proofs/QueueProofs.v
theories/Props/P_Queues.v
theories/Model/Neighbors.v
theories/Model/Geodesic.v
theories/Spec/GeodesicSpec.v
theories/Proofs/NeighborFacts.v
theories/Proofs/BuildProofs.v
theories/Proofs/GeodesicProofs.v
theories/Proofs/GeodesicTheorems.v
theories/Proofs/GeodesicIter.v
theories/Proofs/GeodesicGeo.v
theories/Proofs/GeodesicUses.v
theories/Proofs/GeodesicFilters.v
theories/Props/P_Geodesic.v
theories/Model/Label.v
theories/Model/Watershed.v
theories/Model/HitOrMiss.v
theories/Spec/LabelSpec.v
theories/Spec/WatershedSpec.v
theories/Spec/HitOrMissSpec.v
theories/Proofs/LabelProofs.v
theories/Proofs/LabelTheorems.v
theories/Proofs/LabelUses.v
theories/Proofs/LabelUses2.v
theories/Proofs/WatershedProofs.v
theories/Proofs/HitOrMissProofs.v
theories/Proofs/HitOrMissProofs2.v
theories/Proofs/HitOrMissProofs3.v
theories/Proofs/WatershedTheorems.v
theories/Proofs/WatershedLines.v
theories/Proofs/WatershedLines2.v
theories/Proofs/LabelExtrema.v
theories/Props/P_Label.v
theories/Props/P_Watershed.v
theories/Props/P_HitOrMiss.v
theories/Model/Graph.v
theories/Spec/GraphSpec.v
theories/Model/Scan.v
theories/Spec/ScanSpec.v
theories/Proofs/ScanProofs.v
theories/Proofs/ScanProofs2.v
theories/Proofs/ScanProofs3.v
theories/Props/P_Scan.v
theories/Model/Distance.v
theories/Model/Signals.v
theories/Model/Bits.v
theories/Model/LineSplit.v
theories/Spec/LineSplitSpec.v
theories/Proofs/LineSplitProofs.v
theories/Spec/BitsSpec.v
theories/Proofs/BitsProofs.v
theories/Proofs/BitsProofs2.v
theories/Proofs/BitsProofs3.v
theories/Proofs/BitsProofs4.v
theories/Props/P_Bits.v
theories/Props/P_LineSplit.v
theories/Model/BufferPool.v
theories/Spec/BufferPoolSpec.v
theories/Proofs/BufferPoolProofs.v
theories/Spec/SignalsSpec.v
theories/Proofs/SignalsProofs.v
theories/Spec/DistanceSpec.v
theories/Proofs/DistanceProofs.v
theories/Proofs/DistanceProofs2.v
theories/Proofs/DistanceProofs3.v
theories/Proofs/DistanceProofs4.v
theories/Proofs/DistanceProofs5.v
theories/Proofs/DistanceProofs6.v
theories/Proofs/DistanceProofs7.v
theories/Props/P_Distance.v
theories/Props/P_Objects.v
theories/Proofs/GraphProofs.v
theories/Proofs/GraphProofs2.v
theories/Proofs/GraphProofs3.v
theories/Props/P_Graph.v
theories/Model/Draw.v
theories/Spec/DrawSpec.v
theories/Proofs/DrawProofs.v
theories/Proofs/DrawProofs2.v
theories/Proofs/DrawProofs3.v
theories/Proofs/DrawProofs4.v
theories/Proofs/DrawProofs5.v
theories/Props/P_Draw.v
theories/Model/MaxTree.v
theories/Spec/MaxTreeSpec.v
theories/Proofs/MaxTreeProofs.v
theories/Proofs/MaxTreeProofs2.v
theories/Proofs/MaxTreeProofs3.v
theories/Proofs/MaxTreeProofs4.v
theories/Proofs/MaxTreeProofs5.v
theories/Proofs/MaxTreeProofs6.v
theories/Proofs/MaxTreeProofs7.v
theories/Proofs/MaxTreeProofs8.v
theories/Proofs/MaxTreeProofs9.v
theories/Proofs/MaxTreeProofs10.v
theories/Proofs/MaxTreeProofs11.v
theories/Props/P_MaxTree.v
theories/Model/UnionFind.v
theories/Spec/UnionFindSpec.v
theories/Proofs/UnionFindProofs.v
theories/Proofs/UnionFindProofs2.v
theories/Proofs/UnionFindProofs3.v
theories/Proofs/UnionFindProofs4.v
theories/Proofs/UnionFindProofs5.v
theories/Props/P_UnionFind.v
theories/Model/AreaUnionFind.v
theories/Proofs/AreaUnionProofs.v
theories/Proofs/AreaUnionProofs2.v
theories/Proofs/AreaUnionProofs3.v
theories/Props/P_AreaUnion.v
theories/Model/Files.v
theories/Spec/FilesSpec.v
theories/Proofs/FilesProofs.v
theories/Proofs/FilesProofs2.v
theories/Proofs/FilesProofs3.v
theories/Proofs/FilesProofs4.v
theories/Proofs/FilesProofs5.v
theories/Proofs/FilesProofs6.v
theories/Proofs/FilesProofs7.v
theories/Props/P_Files.v
theories/Model/FastLine.v
theories/Model/Zones.v
theories/Model/Arrow.v
theories/Model/Granulometry.v
theories/Spec/GranulometrySpec.v
theories/Proofs/AsfProofs.v
theories/Proofs/AsfProofs2.v
theories/Proofs/GranProofs.v
theories/Proofs/GranProofs2.v
theories/Props/P_Granulometry.v
theories/Spec/ArrowSpec.v
theories/Proofs/ArrowProofs.v
theories/Proofs/ArrowProofs2.v
theories/Proofs/ArrowProofs3.v
theories/Proofs/ArrowProofs4.v
theories/Spec/ZonesSpec.v
theories/Proofs/ZonesProofs.v
theories/Proofs/ZonesProofs2.v
theories/Spec/FastLineSpec.v
theories/Proofs/FastLineProofs1.v
theories/Proofs/FastLineProofs2.v
theories/Proofs/FastLineProofs3.v
theories/Proofs/FastLineProofs4.v
theories/Proofs/FastLineProofs5.v
theories/Proofs/FastLineProofs6.v
theories/Proofs/FastLineProofs7.v
theories/Props/P_FastLine.v
theories/Props/P_Zones.v
theories/Props/P_Arrow.v
theories/Model/Extinction.v
theories/Spec/ExtinctionSpec.v
theories/Proofs/ExtinctionProofs1.v
theories/Proofs/ExtinctionProofs2.v
theories/Proofs/ExtinctionProofs3.v
theories/Proofs/ExtinctionProofs4.v
theories/Proofs/ExtinctionProofs5.v
theories/Proofs/ExtinctionProofs6.v
theories/Proofs/ExtinctionProofs7.v
theories/Props/P_Extinction.v
theories/Model/Compare.v
theories/Spec/CompareSpec.v
theories/Proofs/CompareProofs.v
theories/Proofs/CompareProofs2.v
theories/Props/P_Compare.v
theories/Model/Contrast.v
theories/Spec/ContrastSpec.v
theories/Proofs/ContrastProofs.v
theories/Proofs/ContrastProofs2.v
theories/Props/P_Contrast.v
theories/Model/Moments.v
theories/Spec/MomentsSpec.v
theories/Proofs/MomentsProofs.v
theories/Proofs/MomentsProofs2.v
theories/Props/P_Moments.v
theories/Model/Matrix.v
theories/Spec/MatrixSpec.v
theories/Proofs/MatrixProofs.v
theories/Props/P_Matrix.v
theories/Model/Convolution.v
theories/Spec/ConvolutionSpec.v
theories/Proofs/ConvolutionProofs.v
theories/Proofs/ConvolutionProofs2.v
theories/Props/P_Convolution.v
theories/Model/Color.v
theories/Spec/ColorSpec.v
theories/Proofs/ColorProofs.v
theories/Proofs/ColorProofs2.v
theories/Props/P_Color.v
theories/Model/Resize.v
theories/Spec/ResizeSpec.v
theories/Proofs/ResizeProofs.v
theories/Props/P_Resize.v
theories/Model/AsBuild.v
theories/Spec/AsBuildSpec.v
theories/Proofs/AsBuildProofs.v
theories/Props/P_AsBuild.v
theories/Proofs/AsBuildProofs2.v
theories/Model/Profile.v
theories/Proofs/ProfileProofs.v
theories/Props/P_Profile.v
theories/Model/LabelMeasures.v
theories/Spec/LabelMeasureSpec.v
theories/Proofs/LabelMeasureProofs.v
theories/Proofs/LabelMeasureProofs2.v
theories/Props/P_LabelMeasures.v
theories/Model/BlobPositions.v
theories/Spec/BlobPositionSpec.v
theories/Proofs/BlobPositionProofs.v
theories/Props/P_BlobPositions.v
theories/Model/BlobBoxes.v
theories/Proofs/BlobBoxProofs.v
theories/Props/P_BlobBoxes.v
theories/Model/BlobMoments.v
theories/Spec/BlobMomentSpec.v
theories/Proofs/BlobMomentProofs.v
theories/Props/P_BlobMoments.v
theories/Model/BlobValues.v
theories/Proofs/BlobValueProofs.v
theories/Props/P_BlobValues.v
theories/Model/BlobMedian.v
theories/Proofs/BlobMedianProofs.v
theories/Props/P_BlobMedian.v
